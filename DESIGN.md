# Formal model of Equinox in Rocq

Source modelled: `/repo/equinox` (Python, JAX). The model is a set of total, executable
Gallina functions that follow the Python functions branch by branch. Exceptions are values
of type `res`. Nothing here was run against the Python code. The only link between model and
code is the reading recorded in the citations above each definition.

## Layout

Each topic `X` has up to four kinds of file in `rocq/theories`:

| file | content |
|---|---|
| `X_Model.v` | definitions that mirror the code; each cites file and lines |
| `X_Spec.v` | small independent specification: what the property means |
| `X_Proofs*.v` | lemmas |
| `X_Props.v` | the property theorems `Cnn_...`, `Print Assumptions`, and examples that meet the hypotheses |

Theorems ending in `_refuted` state, with a witness, that a reading of a property is false of the
model. Theorems ending in `_partial` prove less than the property says. The note in
`MANIFEST.json` says what is missing.

## Trusted base

* The Coq 8.16.1 kernel, including its conversion machine (`vm_compute`) where a concrete witness is checked.
* `Print Assumptions` reports "Closed under the global context" for every theorem named in
  `MANIFEST.json`, except those about layers modelled over the real numbers of the standard library (C70-C74, C76, C88, C112, C115, C130, C131). These depend on
  the axioms by which the standard library constructs the real numbers:
  `ClassicalDedekindReals.sig_forall_dec`, `ClassicalDedekindReals.sig_not_dec` and
  `FunctionalExtensionality.functional_extensionality_dep`; five theorems of C131 depend also on
  `Classical_Prop.classic`, used by the standard library for `ln` and for the monotony of `exp`. There are no own axioms.
  (`vcheck` lists seven parameters of `Coq.ssr.ssrunder.Under_rel`: they are fields of a module type in a file of
  Coq's own distribution which gets loaded with it. Since the real numbers are used it also lists the sealed definitions of
  `Coq.Reals.Rdefinitions`, which are loaded with `Reals`. No theorem uses any of these as an axiom.)
* The reading of the Python code and of the JAX and NumPy functions it calls. JAX itself is not
  modelled. What is assumed of it is a comment of the model file (listed below), or a
  premise of the theorem.
* No own axioms, no `Admitted`, no functors or module types, no plugins.

## What is modelled, and simplifications

The header of each model file says which lines it covers and what is simplified:

* **Act_Model** — Model of the learnt activations of an MLP: equinox/nn/_mlp.py lines 112-126 and 141-152. - `filter_vmap` is that of Vmap_Model (default `in_axes`, `out_axes`: `if_array(0)`). An activation is a PyTree; `call` is `lambda a, b: a(b)` as traced by `jax.vmap`. - The inner `filter_vmap` of line 115 runs under the outer one, but nothing it sees is batched: its result is not batched either. - The linear layers are arbitrary functions of arrays (Mlp_Model has them).
* **Ad_Model** — Model of filtered differentiation: equinox/_ad.py lines 51-108, 150-190, 228-279, 282-359, 374-447, 506-528. Differentiation itself is JAX's. JAX's transformations flatten their argument, work on lists of leaves, and unflatten; the part between is an arbitrary "engine": - `VG has_aux F ws`: `jax.value_and_grad` of the function `F` on lists of leaves, at `ws`; returns the value of `F` and one gradient per element of `ws`; - `VJP F ws`: `jax.vjp(.., has_aux=True)`; returns outputs, pullback and auxiliary output; - `JAC rev F ws`: `jax.jacrev`/`jax.jacfwd` with `has_aux=True`; returns for each output leaf a list with one array per element of `ws`. What theorems assume about engines is stated there. `jax.jvp` is modelled with dual numbers: the leaves the user's function works on are either constants or tracers carrying a primal and a tangent. Leaves have type `L`; `is_arr`, `inexact` are `is_array`, `is_inexact_array`. Arguments besides the first are passed through as one tree.
* **Attention_Model** — Model of attention: equinox/nn/_attention.py lines 19-58 and 143-345, with the projections of `Mlp_Model`. - Numbers: any type with the operations used; `sqrt` of a size, the smallest finite float `fmin` and the exponential are arbitrary. dtypes and the conversions of lines 37-39 are not modelled. - An array of shape (seq, n) is a list of rows, one of shape (seq, heads, n) a list of lists of rows. Sequences have at least one element (the code reshapes to an unknown size, which fails otherwise). - `dropout` is the call of `nn.Dropout` on an array of weights with the key of the head (property C41). - `named_scope` and the deprecated argument `deterministic` are left out.
* **BatchNorm_Model** — Model of BatchNorm: equinox/nn/_batch_norm.py lines 59-176, on top of the model of `State`. - Numbers are exact rationals (dividing by zero gives zero); `jnp.sqrt` is an arbitrary function. Complex inputs (the `conj` of line 152) are not modelled. - The call is seen from outside the `vmap`: the input is a batch, a list of examples, each a list of channels, each the list of the entries of that channel. `lax.pmean` is the mean over the batch if an axis with the name `axis_name` is in scope. (Under `vmap` JAX hands the module a copy of the state and returns the resulting state; here the module works on the state itself.) - A floating dtype is a number; promotion is the maximum. Arrays of the state are the flag `first_time` and vectors with a dtype. `jnp.empty` gives arbitrary entries.
* **Bert_Model** — Model of the encoder of examples/bert.ipynb (lines 134-150, 188-206, 248-285, 328-345, 407-442 of the notebook file), with dropout off (`enable_dropout=False`, as in evaluation). Composed of the models of `MultiheadAttention` and `Linear`. Simplifications. Numbers are any type with the operations used; `gelu` and `tanh` are arbitrary functions of numbers. Layer norms, and the embedder, which acts on every position by itself, are arbitrary functions of rows that may fail. Keys play no part without dropout.
* **BoundedCost_Model** — Model of what is executed by `_while_loop` in equinox/internal/_loop/bounded.py (lines 60-78), without and with reverse-mode differentiation. - The result is `bounded_rec` of Loop_Model; here the evaluations of `cond_fun` and `body_fun` are recorded in order. - `lax.cond` runs one branch, since `cond_fun` is not batched (common.py makes it an `unvmap_any`). - In reverse mode `lax.scan` stores, for each iteration, what the backward pass of the iteration needs. This is the carry if the iteration is wrapped in `jax.checkpoint` (which evaluates it again, storing again, before going backwards), and carry and linearisation of the body otherwise (lines 74-76). Iterations are treated backwards in opposite order. - Neither the memory needed within one evaluation of the body nor what XLA optimises is modelled.
* **Buffer_Model** — Model of the primitives behind loop buffers: equinox/internal/_loop/common.py lines 23-137 (`select_if_vmap`), 140-258 (`maybe_set`), 283-364 (`_Buffer`, `buffer_at_set`). - Entries are of an arbitrary type `V` with zero, sum and product where derivatives need these. `None` stands for the symbolic zero `ad.Zero`. - `real` is true if a select happens: `makes_false_steps`, or a batched predicate (lines 123-137 and 102-104). - Buffers are one-dimensional, indices are natural numbers. dtypes, the checks of lines 237-248 and the shape assertions are left out. - In the batching rule arrays are functions of multi-indices.
* **Cache_Model** — Model of `compile_cache`, equinox/_compile_utils.py lines 34-95. Simplifications: the arguments `(args, kwargs)` flattened in line 66 are one abstract key with an equality test (Python's `==` together with `hash`, treedefs included) and a hashability test; names are coded as numbers. `jtu.tree_unflatten` of line 60 gives back the arguments. The disappearance of an entry when its weakly referenced function is garbage collected is an event that may come at any time.
* **Callback_Model** — Model of calling Python from a compiled function: equinox/_callback.py lines 1-62 (`filter_pure_callback`). - Leaves have type `L`; `is_arr` is `is_array`. `is_struct` is `_is_struct` (lines 7-8): whether a leaf has a shape and a dtype, which arrays have too. `struct` is the shape and dtype of such a leaf, compared with `seqb`. - `leq` is the comparison of two leaves that are not arrays by `tree_equal`. - `callback` is the user's function of positional and keyword arguments; the tuple of both is `Node 0 `args; kwargs``. - `pure_callback` is JAX's (outside /repo): the leaves of what the function returns are checked against the declared shapes and dtypes, one by one, and given the declared structure. The structure of what the function returns is not looked at. - Shardings and the treatment of `vmap` are JAX's and left out.
* **Ckpt_Model** — Model of equinox/internal/_loop/checkpointed.py: the forward pass with online checkpointing and the treeverse-style backward pass.
* **Class_Model** — Model of class creation: abstract attributes (equinox/_better_abstract.py lines 137-255) and strict Modules (equinox/_module.py lines 236-252, 350-482, 601-652). - Classes live in a registry and are numbered in the order of creation; 0 is `object` and 1 is `equinox.Module` (whose own methods are all magic, and are left out). - An annotation is one of the six forms that `_process_annotation` distinguishes. A class attribute is a function or something else (property, class method, value), and may carry `__isabstractmethod__`. What `dataclass` adds to the class dictionary is magic and left out; fields without default given as `x: T = field(...)`, which it removes from there, do not occur. - The metaclass of non-Modules is `type`: they have no abstract methods. - Reading class attributes ignores the metaclass. `InitVar` and `KW_ONLY` do not occur.
* **Classify_Model** — Model of the two examples of classification: examples/mnist.ipynb lines 174-197 (network, shapes), 313-331 (loss), 484-517 (accuracy, evaluation), and examples/train_rnn.ipynb lines 65-77 (data), 97-118 (network), 152-155 (loss). Simplifications. Numbers are real numbers. Of the CNN only shapes are modelled. `jnp.take_along_axis` counts negative indices from the end and gives NaN (`None`) outside of the range. A torch `DataLoader` without `drop_last` gives consecutive parts of the shuffled data, as `eval_dataloader` (C122).
* **Closure_Model** — Model of tracing to a jaxpr, shape evaluation and closure conversion: equinox/_make_jaxpr.py lines 21-46, equinox/_eval_shape.py lines 18-62, equinox/_ad.py lines 531-721 (`filter_closure_convert`) and 1205-1221 (`filter_checkpoint`). - Leaves have type `L`; `is_arr` is `is_array`, `is_sds` recognises `jax.ShapeDtypeStruct`s. `struct` is the abstract value of an array or struct: shape, dtype and weak type; `sds` is the struct with that abstract value and `strip` forgets the weak type. Shardings are left out, and NumPy arrays are not told from JAX arrays. - `leq` is Python's `==` on leaves. - Positional and keyword arguments are a tuple `Node 0 `args; kwargs``. - `trace` is JAX's tracing machinery (outside /repo) for functions of a flat list of arrays. The function returns arrays together with Python data: the structure of the outputs and the contents of `Static`. The result of tracing is the jaxpr, the abstract outputs and that Python data.
* **Config_Model** — Model of the configuration by environment variables: equinox/_config.py lines 1-30, and of its uses in equinox/internal/_getkey.py lines 37-43 and equinox/_errors.py lines 146-147 and 291-294. Simplifications. The environment is a function from names to byte strings; `int` of Python is modelled for strings of ASCII characters (a character above 127 is neither a space nor a digit) with at most 4300 digits. Warnings are a flag.
* **Container_Model** — Model of the metaclass `ContainerMeta`: equinox/internal/_misc.py lines 14-43. - The namespace of a class body is a list of names and values without repetition, in order of first assignment; `V` is the type of values. - A class is the list of the namespaces along its MRO that were made by `ContainerMeta`; `object` has no name of interest. - Arrays are given by their shape and by whether their dtype is an integer dtype (booleans are not).
* **Conv_Model** — Model of convolutions: equinox/nn/_conv.py lines 20-67, 70-250 (Conv), 353-620 (ConvTranspose) and the fixed-dimension subclasses, lines 253-351 and 623-727. - Sizes, strides and so on are unbounded integers. Array entries are elements of an arbitrary commutative semiring: no rounding. Random initial weights are not modelled, only their shape. - `lax.conv_general_dilated` (JAX) for unbatched input: see `conv_gd`. Its output size along an axis is `max(0, (padded - window) // stride + 1)`, where `padded` and `window` are the sizes after dilation and padding. - `lax.padtype_to_pads` (JAX): see `same_pads`.
* **Custom_Model** — Model of custom derivative rules: equinox/_ad.py lines 724-828 (`filter_custom_jvp`), 831-853 (`nondifferentiable`) and 856-1118 (`filter_custom_vjp`). - Leaves have type `L`; `is_arr`, `inexact` are `is_array`, `is_inexact_array`; `jax_type` tells which objects have an abstract value (`jax.core.get_aval`). - Positional and keyword arguments are a tuple `Node 0 `args; kwargs``. - What JAX supplies: to a JVP rule, a tangent for every array, `None` being a `SymbolicZero`; to the forward rule of a VJP, for every array whether it is perturbed; to the backward rule, a cotangent for every inexact array output. JAX refuses tangents and cotangents whose structure is not that of the primals; its checks of shapes and dtypes are left out. - Deprecation warnings are left out. The booleans `perturbed` come back unchanged from the residuals.
* **DataLoader_Model** — Model of the data loaders of the examples: `dataloader` of examples/train_rnn.ipynb, `train_dataloader`, `eval_dataloader` and the evaluation loop of examples/parallelism.ipynb; `dataloader` of examples/score_based_diffusion.ipynb. - An array is the list of its rows. `np.random.permutation(indices)` in epoch number `e` is the list `perm e`. - Generators: `items` computes the first `k` values yielded. `None` is no result within the given number of steps.
* **Dce_Model** — Model of equinox/debug/_dce.py: `store_dce` and `inspect_dce`. Simplifications: the module-level dictionary is restricted to one `name` (other names are other dictionaries); the host callbacks that `jax.pure_callback` may or may not execute are the arbitrary set of indices recorded in `alive`; the two tests whether we are inside of JIT (lines 63-64, 96-97) are taken to have passed.
* **Debug_Model** — Model of backward_nan, announce_transform: equinox/debug/_backward_nan.py lines 19-71 and equinox/debug/_announce_transform.py lines 14-134. - `backward_nan` is built on `filter_custom_vjp` (Custom_Model). The arguments `name` and `terminate` are a tuple; `truthy` is the truth value of a Python object, `array_like` is `is_array_like`, `has_nan a` is `jnp.isnan(a).any()`. Printing is left out. `error_if` raises RuntimeError if its predicate holds (property C33); `jnp.stack(``)` raises ValueError. - `announce_transform`: JAX's handling of a primitive under `vmap` and `jvp` (outside /repo). A value under transforms, innermost first, is a value with an optional batch axis for each `vmap` and an optional tangent for each `jvp`; `None` is `ad.Zero`. JAX does not use the rules if no operand is batched, or none has a tangent. `jit` is only modelled outermost, where it replaces `impl` by `abstract` (tracing) and `mlir` (lowering). What is announced is a list of stacks, in order. - Reverse mode: JAX transposes the primitive that carries the tangents, calling the rule with the cotangents as a list and then one positional argument for each operand. `ad.Zero` cannot be given to a primitive.
* **Decorate_Model** — Model of how the decorators of equinox take their options: `filter_jit` equinox/_jit.py lines 315-431, `filter_value_and_grad` and `filter_grad` equinox/_ad.py lines 151-192 and 229-279, `filter_vmap` and `filter_pmap` equinox/_vmap_pmap.py lines 215-362 and 542-681, `filter_checkpoint` equinox/_ad.py lines 1150-1184, `assert_max_traces` equinox/debug/_max_traces.py lines 99-155, `filter_primitive_transpose` equinox/internal/_primitive.py lines 191-207, `deprecated_0_10` equinox/_deprecate.py lines 1-11, `functools.partial` and Python's rules for keyword arguments. Simplifications. What a wrapper does is not modelled here, only which function and options it holds. A function is a number. Keyword arguments are a list of pairs in the order of Python's dictionaries. A missing function is `None` (the sentinel is not passed explicitly); something else than a function as function is a TypeError.
* **Diffusion_Model** — Model of examples/score_based_diffusion.ipynb: the mixer (shapes), losses and sampling over the reals, keys and printed losses of training. Its data loader is in DataLoader_Model (C122). Simplifications. Of the mixer only shapes are modelled. Numbers are real numbers, `int_beta` is any function and `jax.jvp` gives its derivative, passed as `beta`. Keys are paths of splits, each (number of keys asked for, index).
* **DocUtils_Model** — Model of the helpers for documentation and of strings as pytrees: equinox/_doc_utils.py lines 8-52; equinox/internal/_str2jax.py lines 6-18, with `Module.__eq__` and `__hash__` (equinox/_module.py lines 1019-1025). Simplifications. A parameter is its name, its kind (a number, in Python's order: positional-only 0, positional or keyword 1, variadic 2, keyword-only 3, variadic keyword 4) and whether it has a default. `Signature.replace` checks as Python's `inspect` does: kinds in order, no parameter without a default after one with (among positional ones), no name twice. A class made by `str2jax` is its position in the list of all classes made; a jitted function with such an argument has one entry in its cache for each class.
* **Dropout_Model** — Model of Dropout: equinox/nn/_dropout.py lines 26-97. - Numbers are exact rationals; arrays are flat lists. `jrandom.bernoulli` is an arbitrary function of key, probability and size. Dividing by zero gives zero here and infinity in the code; the entries for which that matters are dropped (see `C41_certain`). - Deprecation warnings are counted, gradients (`lax.stop_gradient`) are not modelled.
* **Dtype_Model** — Model of the dtypes in the layers of equinox/nn: how the dtypes of parameters and inputs determine the dtype of the output, or an error. _linear.py lines 93-103, _mlp.py 89-152, _rnn.py 100-111 and 195-206, _conv.py 237-250, _normalisation.py 144-161, 263-283 and 392-408, _batch_norm.py 90-176, _dropout.py 86-97, _activations.py 32-45, _embedding.py 53-84 and 220-255, _attention.py 20-57 and 290-350, _spectral_norm.py 15-24 and 98-157, and `default_floating_dtype` (equinox/_misc.py lines 16-20). - JAX promotes dtypes along a graph (documented in its "Type promotion semantics"); the result is the least upper bound. `WI`, `WF`, `WC` are the nodes of weakly typed values, that is of Python numbers and of arrays made from them with `jnp.asarray`; such an array has the default dtype. In the mode "strict" of `jax.numpy_dtype_promotion` weak types are promoted only. A `TypePromotionError` is a `ValueError`. Dtypes of 8 bits or less other than `int8` and `uint8` are left out. - `/` and `jnp.mean` turn integers into the default floating dtype. `jnp.var` of complex numbers is real. `lax.select` and `lax.conv_general_dilated` want equal dtypes and raise a `TypeError`. - Shapes are right. Parameters made by a layer are of an inexact dtype; activation functions keep dtypes. Without `jax_enable_x64` there are no 64-bit values.
* **Embed_Model** — Model of Embedding: equinox/nn/_embedding.py lines 20-105. - An array is its shape and its entries by multi-index. The library's `weight`x`` for a scalar `x`, `getitem`, and `jrandom.normal` are arbitrary functions; the theorems assume of them what they need. dtypes are an arbitrary type. - Array-like values (`is_array_like`, equinox/_filters.py lines 26-32) are their shape and, for scalars, an element of an arbitrary type `S`. - `named_scope` and the ignored `key` argument of calls are left out.
* **Ensemble_Model** — Model of the ensembles of docs/tricks.md lines 103-135: a model is created under `filter_vmap` over random keys, giving one PyTree of stacked arrays; that is passed back into a `filter_vmap` to be called. The functions are arbitrary: creation takes a key and returns a PyTree; calling takes a model and an input. `make` and `call` are what they do under `jax.vmap`, on tracers. Composed of the model of `filter_vmap` (equinox/_vmap_pmap.py).
* **Enum_Model** — Model of `Enumeration`: equinox/_enum.py lines 22-139, 153-169, 292-373. - Classes live in a registry and are numbered in the order of creation; 0 is `object` and 1 is `Enumeration`. Classes that are not enumerations occur as well. - `_value` is a concrete number (lines 127-133: what `__getitem__` says about tracers is left out). - Names 0 and 1 are `promote` and `where`. Magic names do not become items and are left out.
* **ErrorsAd_Model** — Model of error_if and branched_error_if under forward-mode differentiation: equinox/_errors.py lines 81, 160-170 (the derivative rule of `_error`) and 283-344, with `filter_custom_jvp` of equinox/_ad.py (Custom_Model). - A differentiated pytree has at each leaf a value and its tangent, `None` being a symbolic zero. - The predicate and the index may be differentiated as well (`zp`, `zi`); `unvmap_any` and `unvmap_max` give values without tangents, and the rule ignores them. - The keyword arguments of `_error` (strings) are left out. Reverse mode is the transposition of the map on tangents.
* **Errors_Model** — Model of error_if, branched_error_if, assert_dce: equinox/_errors.py lines 30-39, 81-157, 199-365, and equinox/_unvmap.py. - An array is its dtype and the list of all its values, batch axes included. Under `vmap` the predicate, index and `x` are the whole batches: `unvmap_any` and `unvmap_max` have batching rules that pass the batched array on and return an unbatched scalar (lines 61-63, 92-94), so that `lax.cond` sees an unbatched predicate. - `is_array` values become tracers in `branched_error_if_impl_jit`; Python bools and ints stay concrete. Extended dtypes (PRNG keys) and TPUs are not modelled. - The traceback text is not modelled; a run-time error means that the compiled program is executed and its result used (no dead code elimination).
* **EvalFull_Model** — Model of `eval_empty`, `eval_zero` and `eval_full` (equinox/internal/_misc.py lines 61-73). - `fill s` is `jnp.full(x.shape, fill_value, x.dtype)`, `jnp.zeros` or `jnp.empty` for a struct `x` of abstract value `s`; it does not look at the weak type. - Leaves that are neither arrays nor structs have no attribute `shape`.
* **Filters_Model** — Model of equinox/_filters.py (filter, partition, combine) and equinox/_update.py.
* **FlatTrain_Model** — Model of low-overhead training loops, docs/tricks.md lines 137-178: the loop carries the leaves of the model and of the optimiser's state; they are put back together inside the step, with the structures from before the loop. The step is an arbitrary function of the model, the optimiser's state and a batch. `filter_jit` is left out: C62 is that it does not change results.
* **Funtree_Model** — Model of functions as PyTrees: equinox/internal/_closure_to_pytree.py lines 19-130. - Values: leaves of an arbitrary type `L`; PyTree nodes (with an arbitrary label); functions; `_Closure`s. A function object has an identity of its code (with its globals), its default values, and its cells, addresses in a heap; an empty cell is `None`. `__closure__ is None` is no cells. `_Closure` has the function's code and defaults (`_FunctionWithEquality.fn`) and the contents of the cells. - Function bodies are expressions that may do anything that matters here: read arguments and cells, build and take apart tuples, compute with leaves, branch, call, create functions capturing cells and arguments, assign to cells (`nonlocal`), and ask whether a value is a function. - Defaults are leaves. Keyword arguments, function attributes, names and annotations are left out. Objects are not shared, other than cells. - `None` as a result of evaluation means that the fuel was not enough; for `closure_to_pytree` unbounded recursion (RecursionError).
* **Gan_Model** — Model of examples/deep_convolutional_gan.ipynb: lines 164-241 (generator), 259-333 (discriminator), 351-400 (losses), 403-465 (steps), 468-555 (the training loop); positional arguments and results are passed in the order of the source. Simplifications. Of the layers only shapes are modelled (sizes as in `Conv_Model.out_size`). Training is modelled symbolically: parameters are numbered by the updates they have had, an optimiser's state by its updates, a batch norm state is the list of what it has seen, and a prediction names the parameters, the batch and the state that produced it. Keys are paths of split indices. The loss of one prediction is an arbitrary function. `filter_jit` is left out (C62).
* **Hashable_Model** — Model of equinox/_compile_utils.py lines 15-31: packing pytrees for the jit cache.
* **InitApply_Model** — Model of the compatibility with init/apply libraries: examples/init_apply.ipynb (`make_mlp`, of any model), and a training loop such a library may run: it knows the parameters and `apply_fn` only, differentiates with respect to all parameters and adds updates to all of them. Composed of the models of `partition`, `combine` and of training.
* **Init_Model** — Model of how layers use random keys: `default_init` (equinox/nn/_misc.py lines 33-43), the initialisation of Linear (_linear.py lines 50-61), MLP (_mlp.py lines 89-108), GRUCell and LSTMCell (_rnn.py lines 65-78, 165-174), Conv and ConvTranspose (_conv.py lines 156-174, 495-513), MultiheadAttention (_attention.py lines 186-223), Embedding (_embedding.py lines 53-84) and SpectralNorm (_spectral_norm.py lines 98-112); and the keys used when calling Dropout (_dropout.py lines 83-97), MultiheadAttention (_attention.py lines 45-57, 333-343) and Sequential (_sequential.py lines 76-109), all in equinox/nn. - A key is the key first passed in, or the i-th of the n keys given by `jrandom.split` of a key. An operation records each `split` and each draw, in order, also if it raises later. - A drawn array is described by its key, shape and distribution: standard normal, Bernoulli, or uniform between -1/sqrt d and 1/sqrt d. A complex array has a real and an imaginary part. - Sizes are naturals; what else the constructors check (paddings, strides) is in the other models. An embedding whose weight is passed in draws nothing and is left out.
* **Jaxpr_Model** — Model of equinox/internal/_finalise_jaxpr.py lines 30-180 and of the evaluation of jaxprs it imitates. Simplifications: values and literals are one abstract type, types and shapes are ignored; what a primitive computes depends on the jaxprs among its parameters only through the functions they denote; `jax.make_jaxpr(fn)` (lines 119, 128, 167) is the denotation of `fn`, that is, tracing is faithful; `get_bind_params` (line 95), which only regroups the parameters into leading functions and keyword parameters, is left out.
* **JitPatch_Model** — Model of the replacement of `jax.jit` for EQX_ON_ERROR=breakpoint: equinox/_errors.py lines 171-191 (with `currently_jitting`, equinox/_misc.py lines 12-13); of its effect on `filter_jit(...).lower`, equinox/_jit.py lines 63, 217-218 and 246-252; and of the warning about transformed functions as attributes, equinox/_module.py lines 506-508, 671-752 and 815. Simplifications. A program is a tree of calls: the function of a node calls its children in order and computes a result from theirs, or raises. `jax.jit` does not change results. An object is its type, whether it is a pytree with an array-like leaf, and its `__wrapped__`.
* **Jit_Model** — Model of filter_jit: equinox/_jit.py lines 41-108, 193-293, 374-431, and `Lowered`/`Compiled` of equinox/_compile_utils.py lines 98-125. - `inspect.Signature.bind` is modelled for signatures with positional-or-keyword parameters, `*args`, keyword-only parameters and `**kwargs` (positional-only parameters: as the first kind, never passed by name). Default values stay with the function. - `jax.jit` (outside /repo): a table of traces, looked up by the structure and abstract values (shape, dtype) of the dynamic arguments and by the static argument, which is compared with Python's `==`. On a miss the Python function is traced, with the static argument of that call; a trace computes what the (pure) function computes on all arrays of that kind. - Donated buffers are recorded: after the call the caller cannot use them any more. - Static leaves are hashable (`jax.jit` refuses others). - Exceptions at run time, logging, warnings and `block_until_ready` are not modelled.
* **LoopTree_Model** — Model of the rewriting of loops over PyTrees with buffers: equinox/internal/_loop/common.py lines 367-377 (`_is_buffer`, `_unwrap_buffers`) and 381-513 (`common_rewrite`). - Arrays are of an arbitrary type; `struct` is their shape and dtype. `fixed_asarray` has been applied to all leaves. - A `_Buffer` is a node with the children `_array` and `_pred`; its label holds the static fields `_tag` and `_makes_false_steps`. Labels of buffers are odd, those of other nodes even. The tag `None` is 0; `object()` of line 454 is a number given to the model. - `buffers` selects nodes by their positions in the loop's value. `tree_at` is that of TreeAt_Model. - Line 484 compares ShapeDtypeStructs in place of arrays; `named_shape` is not modelled. - One lane of a batched loop at a time; `unvmap_any` is the disjunction over the lanes. `cond_fun` returns a boolean.
* **Loop_Model** — Model of equinox/internal/_loop/common.py, bounded.py and loop.py.
* **Lru_Model** — Model of the caches that equinox makes with `functools.lru_cache`, and of `clear_caches`: equinox/_caches.py lines 1-18; the caches are equinox/_eval_shape.py lines 49-55 (no limit), equinox/_module.py lines 760-834 (128 entries), equinox/internal/_noinline.py lines 57-74 (128 entries) and 103-129 (no limit), equinox/_compile_utils.py line 78 (no limit). Simplifications. `lru_cache` is modelled as documented for Python: entries from the most to the least recently used one; exceptions are not remembered. A cached function is a function of its (hashable) arguments that may raise, and does not call itself. An object made by a call is its value and a number saying which object it is.
* **Method_Model** — Model of the methods of `Module`s: equinox/_module.py lines 202-214 and 585-588 (wrapping), 615-637 (`_wrap_method`) and 1031-1052 (`BoundMethod`). - Functions are numbers; what calling them does is arbitrary (`fun_call`). - A class is its own namespace and whether it was made by the metaclass of `Module`; an instance of a `Module` has an MRO (without `object`) and its `__dict__`. Class attributes are functions, wrapped functions, properties without setter, static methods, or other values that are no descriptors; class methods and further descriptors are left out. - The `__name__`, `__doc__` and so on that `_module_update_wrapper` copies to a bound method are determined by the function; they are left out (see C57 for copying them). So is the order of `__dict__`, which does not matter to anything here.
* **Misc_Model** — Model of `GetKey` (equinox/internal/_getkey.py lines 15-46) and of `scan_trick` (equinox/internal/_misc.py lines 49-58).
* **Mlp_Model** — Model of Linear and MLP: equinox/nn/_linear.py lines 22-103, equinox/nn/_mlp.py lines 44-152. - Numbers: any type with addition and multiplication. Inputs are scalars or vectors. Random initialisation is an arbitrary function of key and sizes (`default_init` and its limit). - The activations of an MLP are, for layer i and neuron j, an arbitrary function (`filter_vmap` copies learnt ones per layer and neuron: property C92). Sizes are naturals or "scalar". - dtypes are not modelled.
* **Module_Model** — Model of `Module` instances: equinox/_module.py lines 501-567 (construction), 619-637 (bound methods), 760-831 (the mutable class used during construction), 838-913 (flattening), 1109-1143 (`module_update_wrapper`). - Attribute names are numbers; Python values are an arbitrary type `V`. - An instance is its `__dict__`. A class is its list of dataclass fields, what it (and its bases) define under each attribute name, and the `__check_init__` methods along its MRO. - User code (`__init__`, `__post_init__`, `__check_init__`) is an arbitrary finite program that reads and assigns attributes of `self`, may catch exceptions of assignments, and returns or raises. It does not go behind the back of `__setattr__` (no `object.__setattr__`, no `self.__dict__`). - Warnings are dropped.
* **Nextafter_Model** — Model of nextafter and prevbefore: equinox/internal/_nextafter.py lines 6-36. - A floating point number is its bits: a sign and a magnitude (exponent and mantissa read as one integer), or NaN. Magnitude 0 is zero, magnitudes below `tiny` are denormal, `top` is infinity. - `jnp.nextafter` (outside /repo) works on bits: towards `inf` it moves the magnitude by one, from either zero to the least denormal. - Comparisons are those of the hardware: with `daz` (denormals are zero, what the comment in lines 10-14 speaks of) denormals compare like zero. - Derivatives: the rules of lines 18-22 and 32-36 pass tangents through.
* **NoinlineRules_Model** — Model of the rules of the primitive behind `noinline`: equinox/internal/_noinline.py lines 89-126 and 132-341. (The registry of functions is in Noinline_Model.) - A leaf is an array, an undefined primal (during transposition), or any other object. An array is its shape and its entries by multi-index; `jnp.swapaxes(a, 0, k)` and slicing permute, respectively insert, indices. - A function takes and returns PyTrees. Transformations of functions are functions on functions; the library's `filter_jvp` (property C55) and `jax.linear_transpose` are arbitrary. `filter_vmap` with axes 0 and None (property C31) calls the function on the slices and stacks the results along axis 0 with an arbitrary function `stack`; `n` is the size of the mapped axes. - By property C45 the rules get the arguments passed to `filter_primitive_bind`. `batching.not_mapped` is `None`. - The lowering (lines 292-331) is modelled as its packing of arguments into a callback and their recovery there.
* **Noinline_Model** — Model of `noinline`: equinox/internal/_noinline.py lines 103-140, 188-196, 253-283, 344-366 and 453-468. Simplifications: functions are pytrees over an abstract type of leaves `L`; `apply fn args kwargs` stands for running `fn` with the given arguments. The dictionary `_fn_to_index` is an association list searched with the comparison `heq` (Python's `==` on the static part of a function: static leaves and structure), which is arbitrary except where a theorem says otherwise. The primitive is evaluated directly (`_noinline_impl`); by C45 its rule gets the arguments passed to `filter_primitive_bind`. The compiled path (`_get_callback`, lines 103-124) looks the function up and applies the transformations in the same way.
* **Norm_Model** — Model of LayerNorm, GroupNorm and RMSNorm: equinox/nn/_normalisation.py lines 17-161 (LayerNorm), 164-283 (GroupNorm), 286-408 (RMSNorm), and equinox/_misc.py lines 7-9 (`left_broadcast_to`). - Numbers are real numbers: no rounding, infinities or NaNs (`lax.rsqrt` of zero and means of no numbers are unspecified). dtypes are an arbitrary type; `promote d` is `jnp.result_type(d, float32)` under standard promotion, `cast d` is the effect of `astype` to `d` on a number. Complex dtypes are not modelled. - An array is its dtype, shape, and entries in row-major order. Products with parameters of another shape, which broadcast in the library, are modelled as errors in LayerNorm and RMSNorm (constructors never build these). - `state` is `None` if the argument is not given (lines 158-161). `named_scope` and the ignored `key` are left out.
* **Omega_Model** — Model of equinox/internal/_omega.py. Simplifications: an object is a pytree (`Tree_Model`), so that an operator applied to a non-leaf (because of `is_leaf`) is an operator on trees; `operator.add` and so on are arbitrary partial functions of two objects.
* **Parallel_Model** — Model of the memory of examples/parallelism.ipynb lines 105-189: `filter_shard` (C96), `filter_jit(donate=...)` (C62) and the loops around them. Simplifications. A PyTree is the list of its leaves, an array is a number standing for its buffer, which may have been deleted. Values are left out. Outside of a compiled function, `with_sharding_constraint` keeps an array that is where it should be, and copies one that is not; NumPy arrays are always copied. The results of a compiled function are new buffers. Whether XLA makes use of a donated buffer is arbitrary (`taken`); if so, the buffer is deleted. A compiled function refuses deleted buffers, and donated buffers given twice. Shardings: on the first device, on all devices, split over the devices by rows.
* **Partial_Model** — Model of `Partial` (equinox/_module.py lines 1146-1185), `Static` (lines 1188-1207) and `Module.__hash__`/`Module.__eq__` (lines 1019-1025).
* **Perturb_Model** — Model of the perturbation analysis of checkpointed loops: equinox/internal/_loop/checkpointed.py lines 986-1105 and 1179-1242, on loop bodies rewritten by equinox/internal/_loop/common.py lines 453-506. Simplifications: the loop's value is the list of its array leaves. The body is given by one expression per leaf; an expression is an input, a closed-over value, a constant, something through which no derivative passes (`lax.stop_gradient`, integer conversion), or a differentiable operation (identified by a number) applied to expressions. JAX's tracking of symbolic zeros: the tangent of an operation is a symbolic zero exactly if those of all its operands are, and likewise (transposed) for cotangents; this is also what the rules of `select_if_vmap` (common.py lines 39-77) and `maybe_set` (lines 154-208) do. `while True` loops are run with fuel; `None` is "still running".
* **Pmap_Model** — Model of filter_pmap: equinox/_vmap_pmap.py lines 364-503. - Arrays, axis specifications and traced values are those of Vmap_Model.v: on several devices a value is either the same on all of them (`Unb`) or one array per device (`Bat`). `rank` is the number of dimensions of a traced array. - `jax.pmap` (outside /repo): sizes of the mapped axes and `axis_size` must agree; an axis given for a leaf that is not there (because it is not an array) is ignored; outputs with an axis are stacked along it; of an output with axis `None` one device's value is returned, without a check that they are equal (`pick`, left open). There are enough devices. - The function itself is fixed, so that arrays in it are the same on all devices (lines 467-471). The cache of compiled functions (lines 363, 475-483) is that of `filter_jit`; `lower` (lines 486-491) and donation (lines 493-499) are left out. - `hashable_partition` followed by `hashable_combine` is modelled as `partition` and `combine`.
* **PoolNd_Model** — Model of the values of pooling layers of any rank: equinox/nn/_pool.py lines 117-155 (`Pool.__call__`), 158-441 (the average and maximum layers), 535-621 (the adaptive ones). Sizes and refusals are those of Pool_Model. - An array is its shape and its entries by multi-index. `moveaxis`, `expand_dims`, `squeeze` permute, insert and remove indices. - `lax.reduce_window` (outside /repo) pads with `init` and folds the operation over each window, from the left and starting with `init`, the last axis running fastest. - Numbers are real, or minus infinity in `MaxPool`. Rounding, NaN, and integer arrays (which have no minus infinity) are left out.
* **Pool_Model** — Model of pooling: equinox/nn/_pool.py lines 26-155 (Pool) and 444-532 (AdaptivePool). - Sizes are unbounded integers. - `lax.reduce_window` pads with `init` and folds the operation over each window, from the left and starting with `init`; it refuses windows, strides of the wrong number or not positive. Along one axis it gives `max(0, (n + l + r - k) // s + 1)` windows, at distance `s`. - Values: one axis of one channel, non-negative paddings.
* **Prelu_Model** — Model of PReLU: equinox/nn/_activations.py lines 11-45. - Numbers are real numbers; dtypes, and the promotion of lines 44, are not modelled, apart from any number of axes broadcasting (`numpy_rank_promotion("allow")`). - An array is its shape and its entries by multi-index. `broadcast` is NumPy's rule: shapes are aligned at the last axis, axes of size one are stretched. - `jnp.asarray(None)`, which raises, is not modelled.
* **Pretty_Model** — Model of pretty-printing: equinox/_pretty_print.py lines 10-65 (`_Partial`, `tree_pformat`). - An object is an array, a ShapeDtypeStruct, a function wrapped by `jax.custom_jvp` or `jax.custom_vjp`, a `jax.tree_util.Partial`, an object that prints its children (container, dataclass: each child has a label, and a flag for `repr=True`), or anything else, with a type name and its text. - A document is what the external library `wadler_lindig` (wl) lays out; layout (`width`, `indent`) is not modelled. - `wl.pdoc(obj, custom=..., short_arrays=...)` calls `custom` at every object before its own rules, which are `own_doc`; by default `custom` returns `None` and `short_arrays` is true. `wl.array_summary` is the document `DArray`. - The contents of arrays are of an arbitrary type, with a text; `describe` gives the text of all objects that wl has no rule for.
* **Prim_Model** — Model of the filtered primitives of equinox/internal/_primitive.py lines 27-275. Simplifications: objects that are leaves of pytrees are of one abstract type `L`; they include arrays, tracers, abstract values, tangents, batch axes and wrapped undefined primals. `is_array` and `_is_array_like_internal` are arbitrary predicates on them, and `tree_equal` is an arbitrary reflexive comparison. The sentinel objects of lines 27-29 do not occur among the user's objects. `prim.bind` is modelled for direct evaluation (the implementation rule runs) and for tracing (the abstract evaluation rule runs and JAX supplies one tracer per output).
* **Resume_Model** — Model of two documented ways of resuming: a skeleton of the model is made with `filter_eval_shape` and filled from a file (equinox/_serialisation.py lines 292-307, the example in the documentation of `tree_deserialise_leaves`); and hyperparameters on the first line of the file, the leaves behind it (examples/serialisation.ipynb). Composed of the models of `filter_eval_shape` (equinox/_eval_shape.py) and of serialisation. - Weak types are not distinguished. - A file with a first line is a list of characters and records; `json` is an arbitrary pair of functions. - The file of the second example is a buffer; opening it by name is modelled in SerialFile_Model.
* **Rnn_Model** — Model of GRUCell and LSTMCell: equinox/nn/_rnn.py lines 13-111 (GRUCell) and 114-206 (LSTMCell), with equinox/nn/_misc.py lines 33-43 (`default_init`). - Numbers are real numbers, `jnn.sigmoid` and `jnn.tanh` the real functions: no rounding. dtypes are not modelled. - A vector is a list, a matrix the list of its rows. Elementwise operations broadcast vectors of length one; scalars are not modelled. - `default_init` draws an array of a given shape with a given key and bound: arbitrary functions `uniform1`, `uniform2`. - `named_scope` and the ignored `key` argument of calls are left out.
* **Rollout_Model** — Model of modules as inputs to scans: docs/faq.md lines 143-186 (`rollout`). Composed of the models of `partition` and `combine`. `jax.lax.scan` is outside /repo; recorded here is what the example relies on: - everything carried and returned is an array, else a `TypeError`; - the carry a step returns has the structure, shapes and dtypes of the one it was given, else a `TypeError`; `ty` is the shape and dtype of an array; - the values of the steps are stacked; here they are listed. JAX traces the body once for all steps, so a body that always fails does so also on inputs of length 0; here it does not run then.
* **RopeAttention_Model** — Model of attention with rotary embeddings: the example in the documentation of `RotaryPositionalEmbedding`, equinox/nn/_embedding.py lines 117-147. Composed of Attention_Model (with `process_heads`) and Rope_Model. - `jax.vmap(rope, in_axes=1, out_axes=1)` runs the Python code of the embedding once, for arrays of shape (seq, qk_size); the cache is used and changed by that one run, and all heads see the same tables.
* **Rope_Model** — Model of RotaryPositionalEmbedding: equinox/nn/_embedding.py lines 16-17, 165-255. - Numbers: any type with the operations of a ring. `cos`/`sin` of `t * theta^(-2j/n)` cast to the dtype are arbitrary functions of (embedding_size, theta, dtype, t, j); entry (t, j) does not depend on how many rows `end` are computed. - The cache is the module-level dictionary; `eqx.clear_caches` empties it. - Arrays are lists of rows; the final cast to `x.dtype` and promotion errors are not modelled.
* **RunError_Model** — Model of how a run-time error of `error_if` reaches the caller of `filter_jit`: equinox/_jit.py lines 111-126 (which exceptions are JAX's), 145-147, 161-193 (`_FilterCallback`, `last_msg`, `last_stack`), 207-215, 230-293 (`_call`); equinox/_errors.py lines 81-101 (`raises`). - What happens on the host while a compiled function is called is a list of actions, chosen by JAX: the callback `raises` of an `error_if` runs (`Fire`); something is logged (`Log`); another function wrapped by `filter_jit` is called, while tracing or from a callback (`Nested`). What the surrounding program makes of the outcome of a nested call is not modelled (it is part of how it ends). - How a call ends is given by the exception raised when it is dispatched, the exception raised when its outputs are waited for, and its value. `JaxError` is JAX's class of run-time errors, with its text; any other class is `OtherExn`. - `jitting`: `currently_jitting()` when `_call` starts. The warnings of donated buffers are left out. - The logger `jax._src.callback` has a list of filters; filters of the user are given by an arbitrary predicate. Only this logger is modelled. `str.format` inserts message and stack into a fixed text: the result is the pair.
* **ScanLayers_Model** — Model of scan-over-layers, docs/tricks.md lines 180-229: layers of the same structure are created together under `filter_vmap`; calling them scans over the extra dimension of their arrays, the rest of the layer being shared. Composed of the models of `filter_vmap`, `partition` and `combine`. `jax.lax.scan` is outside /repo; recorded here is what the example relies on: - everything scanned over and carried is an array (Python numbers as carry are not modelled); - there is something to scan over, and all of it has the same length; - the body gets element `i` of every array scanned over, for `i` from 0, and has to return a carry of the type (`same_type`: structure, shapes and dtypes) of the one it was given.
* **Scan_Model** — Model of the choice of the kind of a scan and of its length: equinox/internal/_loop/loop.py lines 178-236 (`scan`), for `xs` with any number of leaves. - `xs` are the leaves of the PyTree scanned over: a scalar, or its rows along the first axis. What `f` gets in one step is one row of each leaf. - `jax.lax.scan` is an arbitrary function of `xs` and `length`. - The loop itself, without extra `buffers`, is `scan_checkpointed` of Loop_Model. The rows of several outputs are written as one row.
* **Sequential_Model** — Model of Sequential: equinox/nn/_sequential.py lines 14-123. - A layer that is no StatefulLayer, or one whose `is_stateful()` is false, is a function of the input and the key; a stateful one also takes and returns a state. `None` as a state is the sentinel. - Layers may raise. Inputs, keys and states are arbitrary types.
* **SerialFile_Model** — Model of saving to and loading from named files: equinox/_serialisation.py lines 143-162, 235-245, 318-334. - Strings are split into paths as `pathlib.PurePosixPath` does (Python up to 3.13); `..` stays a part of the path, and there are no links. - The file system is a set of directories, fixed, and a map from paths to contents; permissions and full disks are not modelled. Contents are lists of records as in Serial_Model. - A record is written at once or not at all; a user's function that fails has written nothing. File-like objects are written at their end and read from their start.
* **Serial_Model** — Model of equinox/_serialisation.py. - A file is a list of records: what `np.save` wrote, one self-delimiting `.npy` block each, or junk. Opening files and the suffix `.eqx` (lines 143-162) are in SerialFile_Model. - Array entries are opaque codes (integers). dtypes: a representative list. `cast` is the conversion of an entry between dtypes by `jnp.asarray`; `ctor` is `type(x)(v)` for a scalar type, `v` being an entry of an array as Python object. Both are arbitrary. - NumPy/JAX behaviour relied upon: `np.save` stores `bfloat16` as raw two-byte data ("V2") and other extension types as raw data ("V1"), pickles arrays of objects, refuses typed PRNG keys; `np.load` refuses pickles; `jnp.load` is `np.load`, turning "V2" into `bfloat16`, then `jnp.asarray` unless that fails (it does for "V1"), which narrows 64-bit types unless `x64` is enabled. - Objects other than arrays with a `__jax_array__` method are not modelled.
* **Shard_Model** — Model of the predicates on leaves (equinox/_filters.py lines 19-58) and of `filter_shard` (equinox/_sharding.py lines 11-41). - Of an object only its type, its dtype and its method `__jax_array__` matter here. A class may define that method for its instances; it is then also an attribute of the class itself, where calling it without an instance raises. - dtypes: those of NumPy; the extended ones of JAX, which NumPy knows but does not count among its own numbers (bfloat16, the float8 and int4 types); and the dtypes of random keys. - `jax.lax.with_sharding_constraint` (outside /repo): the tree of shardings must be a prefix of the first argument, which is checked before anything else; then each array is placed (`place`), which may fail (e.g. when its shape does not fit). Shardings `None` do not occur.
* **SharedGrad_Model** — Model of training a model with tied nodes: docs/faq.md lines 46-66, equinox/nn/_shared.py lines 60-158, with `filter_grad` around a loss that starts by calling the `Shared` layer. Composed of the model of `nn.Shared`. - Arrays are numbers of a ring, with a tangent as under `jax.jvp`; an array of several numbers is a node. Other leaves have no tangent. - The derivative of the loss is given as `jax.jvp` computes it: a function of primals and tangents returning a tangent. - The optimiser is gradient descent.
* **Shared_Model** — Model of `nn.Shared` (equinox/nn/_shared.py lines 17-158) and `nn.inference_mode` (equinox/nn/_inference.py lines 7-74).
* **StateFile_Model** — Model of saving and loading a model together with its state: `tree_serialise_leaves(path, (model, state))` and `tree_deserialise_leaves(path, (model, state))`, equinox/_serialisation.py lines 193-334 with `State.tree_flatten` and `State.tree_unflatten` (equinox/nn/_stateful.py lines 267-282; the remark in lines 121-122). Composed of State_Model and SerialFile_Model. - In trees of leaves a `State` is a node with its keys as static data, a `StateIndex` a node with its marker as static data and `init` as child. `state_kind`, `index_kind` encode such nodes as kinds, `keys_of` reads the keys back. - A `State` that has been used up cannot be flattened: this happens after the file has been opened, and the error is reported at the empty path (lines 32-45). - The intermediate `State` objects made by the maps in `tree_deserialise_leaves` are not recorded in the heap.
* **State_Model** — Model of `nn.State`, `nn.StateIndex`, `nn.make_with_state`: equinox/nn/_stateful.py lines 22-391. `State` objects are mutable (`self._state = _sentinel`), so they live in a heap: object number `s` has contents `Some d` (a dictionary) or `None` (the sentinel). - Dictionaries are association lists with distinct keys, in insertion order. - Subclasses of `StateIndex` do not exist (it is a final strict module). - `jnp.asarray` may refuse a leaf; `struct` is what `jax.eval_shape` keeps of an array (shape, dtype, weak type) and `seqb` its equality as used by `tree_equal`.
* **Surgery_Model** — Model of the model surgery of docs/tricks.md lines 20-100: new weights for every linear layer of a model, and weights that are wrapped in a `Symmetric` and resolved before the model is called. Composed of the model of `tree_at` (equinox/_tree.py). - `is_lin` tells the kinds of nodes that are instances of `Linear` (one for each combination of static fields); its weight is the child number `w`. `sym` is the kind of `Symmetric`, whose one child is `matrix`. - `init_fn`, `jax.random.split` and `Symmetric.get` are arbitrary functions.
* **Traces_Model** — Model of equinox/debug/_max_traces.py. Simplifications: `inspect.signature(self.fn).bind` (line 52) is given by its outcome, the ordered pairs of parameter name and `filter_eval_shape` of the value, or a failure; what `tree_equal` says of two such structures is an arbitrary boolean function; texts of messages are reduced to what they report. Calls are listed in the order in which they are entered (everything the wrapper records happens before the wrapped function runs).
* **Train_Model** — Model of the training loops of the documentation: examples/mnist.ipynb lines 580-600, examples/stateful.ipynb lines 97-114, examples/frozen_layer.ipynb lines 99-129, docs/faq.md lines 5-18; composed of the models of `filter_value_and_grad`, `filter_grad`, `filter`, `partition`, `combine` and `apply_updates`. The optimiser is Optax's, not part of the repository: it maps over the leaves of the gradients (and, if it is given the parameters, over those, which must have the same structure), so it is an arbitrary function `opt` on lists of leaves with a state of an arbitrary type. Initialising it is choosing that state. The loops of the documentation are wrapped in `filter_jit`, which is left out here: C62 is that it does not change results.
* **TreeAt_Model** — Model of `tree_at`: equinox/_tree.py lines 19-261. The algorithm works with object identity (`is`, `id(..)`), so pytrees are modelled as trees of Python objects carrying identities. An identity is the phase in which the object was created (1: the copy made on lines 159-163, 2: the copy made on line 165, 3: objects created by the user's `where`) and a position. `None` is a singleton. - Leaf objects of the input are identified by the elements of `A` (`aeq` is `is`). - Custom nodes whose unflatten returns a singleton are not modelled (the comment on lines 152-154 excludes them as well). - `nodes` and `replace` are only iterated over when they are lists or tuples; other containers (e.g. dictionaries, whose iteration yields keys) raise here.
* **TreeCheck_Model** — Model of `tree_check`: equinox/_tree.py lines 352-507. A PyTree is given as an object graph: object number `n` is a leaf or a container with a list of immediate subnodes (object numbers; `id` in Python). Objects may be shared and the graph may have cycles. - Containers whose flattening builds new sub-containers each time are not modelled. - `None` is a container without subnodes. - Python's recursion limit is not modelled; `fuel` bounds the recursion depth instead and TreeCheck_Props shows that it is never exhausted when the caller provides one unit per object.
* **TreeEq_Model** — Model of `tree_equal`: equinox/_tree.py lines 264-349. Leaves are Python objects: NumPy arrays, NumPy scalars, JAX arrays (concrete, i.e. not tracers) or other Python values. Array elements are NaN, an infinity or a rational; complex arrays are not modelled.
* **Tree_Model** — Model of `jax.tree_util` as used by the library: pytrees, `tree_map` with prefix matching, `tree_flatten`/`tree_unflatten`. JAX itself is outside /repo; these definitions record the behaviour the modelled code relies on: - `None` is a node without children (it contributes no leaf); - a node carries a "kind" (its registered type together with its auxiliary data, e.g. dictionary keys or the static fields of a Module), coded as a number; two nodes have the same structure iff kind and arity agree; - `tree_map f t0 t1 .. tn` flattens `t0` (stopping at nodes where `is_leaf` is true) and matches the other trees as far as `t0` goes ("t0 is a prefix"), raising `ValueError` on mismatch.
* **UNet_Model** — Model of the U-Net of examples/unet.ipynb (`ResnetBlock` lines 126-255, `UNet` lines 257-493 of the notebook file): the blocks its `__init__` builds, the key each is given, and its `__call__` at the level of array shapes. Simplifications. Arrays are their shapes (channels, height, width); the values computed are not modelled. Of a block only the fields that decide shapes, attention and keys are kept. Widths and counts are natural numbers, heights and widths of the data at least 1. Keys are paths of split indices from the given key. `GroupNorm` is its constructor check (nn/_normalisation.py lines 220-221) and a check of the number of channels. A mismatch of channels raises one kind of exception here, `ValueError`.
* **Unvmap_Model** — Model of operations that look across, or refuse, batching: equinox/_unvmap.py lines 12-103 (`unvmap_all`, `unvmap_any`, `unvmap_max`) and equinox/internal/_nontraceable.py lines 21-182 (`nontraceable`, `nondifferentiable_backward`, `nonbatchable`) and equinox/debug/_breakpoint_if.py lines 13-30 (`breakpoint_if`). - A value inside of nested `jax.vmap`s has a list of levels, innermost first: `Some n` if it is batched there with `n` lanes, `None` if not. It holds an array for every choice of a lane at each level; at levels where it is not batched the choice does not matter. - An array is the list of its entries. Stacking lanes appends their entries: where in the shape the batch axis is does not matter here. - Binding a primitive with one operand at a level where the operand is not batched binds it at the next level (as `BatchTrace.process_primitive` does); otherwise the batching rule runs at the next level, with the operand stacked along the batch axis. - Floating point numbers are integers or NaN. `error_if` raises if its predicate holds in any lane (property C33). Conversion to `jax.Array`, the messages, and the mapping over PyTrees (partition by `is_array` and `combine`, properties C01-C04) are left out.
* **Vit_Model** — Model of examples/vision_transformer.ipynb: lines 148-154 (loaders), 174-204 (patch embedding), 224-273 (attention block), 293-362 (the transformer), 400-433 (training loop, its keys and batches), 607-622 (testing). Composed of the models of `MultiheadAttention` and `Linear`. Simplifications. Numbers are any type with the operations used; `gelu` is an arbitrary function of numbers. Layer norms are arbitrary functions of rows that may fail. Dropout with `inference=False` is an arbitrary function of a key and an array, kept to the array's shape; with `inference=True` it returns its input. Attention is called without a key, with its dropout rate 0. Keys are paths of split indices from the given key. Patch sizes are positive; no axis of an image is empty. An epoch of a loader is a permutation of the data set, cut into batches.
* **VmapState_Model** — Model of stateful layers under `filter_vmap`: docs/api/nn/stateful.md lines 71-113 ("Vmap'd stateful layers"), with `State.substate`, `State.update` and the flattening of a `State` (equinox/nn/_stateful.py lines 190-282). Composed of the models of `nn.State` and `filter_vmap`. - In trees of leaves a `State` is a node with its keys as static data, a `StateIndex` a node with its marker as static data and `init` as child. `state_kind`, `index_kind` encode such nodes as kinds, `keys_of` and `marker_of` read them back. - `call` is what calling a layer does under `jax.vmap`, on tracers: it takes the layer, the input and the state, and returns the output and the new state. The `State` objects made while tracing are not recorded in the heap. - `filter_vmap(layer)` closes over the layer: its arrays are not mapped (equinox/_vmap_pmap.py lines 115-159).
* **Vmap_Model** — Model of filter_vmap: equinox/_vmap_pmap.py lines 36-184. - Arrays are an arbitrary type `V` with the operations used here: size along an axis, slice along an axis, stacking, moving axis 0 elsewhere, conversion of Python scalars. - Under `jax.vmap` a function sees tracers. A traced array is either not batched or a batch: one array per batch element (`bat`). The user's function works on trees of those. - `jax.vmap` (outside /repo): batch size from the mapped inputs and `axis_size`, which must agree; outputs with axis 0 are stacked (broadcast if not batched), outputs with axis `None` must not be batched. - Axis specifications are `None`, ints, callables into `Optional`int``, or something else. The options `axis_name`, `spmd_axis_name` are not modelled.
* **Vprim_Model** — Model of primitives whose batching rule is derived: equinox/internal/_primitive.py lines 291-470 (`create_vprim`, `_vprim_p`). - Arrays are of an arbitrary type `A`; `take k b a` is slice `b` along axis `k`, `stack k l` stacks slices along axis `k`. `shape_ok` of the library, avals and parameters are left out; so is `axis_name`. - `None` among axes is `not_mapped`; among tangents and cotangents, and among outputs of a transpose rule, it is the symbolic zero or `None`. - `vmap` maps a function over slices, stacking outputs along axis 0 or the axes given. An output for which no axis is given but which is batched raises ValueError, as in `jax.vmap`; cotangents are batched, so everything a transpose rule returns for them is.
* **WeightNorm_Model** — Model of WeightNorm and SpectralNorm: equinox/nn/_weight_norm.py lines 17-114 and equinox/nn/_spectral_norm.py lines 15-157. - Entries are real numbers: no rounding. The result of dividing by zero is `None` (the library gets a NaN or an infinity). - An array is its shape and its entries in row-major order, given as a function of the position; only positions below the size count. A vector or matrix is such a function of one or two indices. - The wrapped layer is of an arbitrary type `Ly`; `get` is `getattr(layer, weight_name)`, `put` is `tree_at(lambda l: getattr(l, weight_name), layer, new)` (properties C06-C08), `run` is calling the layer. Layers whose normalised weight has an entry `None` are not run: the call returns `None` instead of the layer's output. - The state is of an arbitrary type with `sget`, `sset` for the layer's `uv_index` (properties C16-C17). `lax.stop_gradient` is the identity on values. - Random initial vectors are arguments. `named_scope` and the ignored `key` are left out.
* **WrapGrad_Model** — Model of gradients through wrapped parameters: docs/tricks.md lines 57-101, `filter_grad` around a loss that starts by resolving the wrappers of its model. Composed of the models of this surgery and of gradients of trees. - As for tied nodes: arrays are numbers with a tangent, an array of several numbers is a node, and the derivative of the loss is given as `jax.jvp` computes it. - A matrix is a node of rows, each a node of numbers.

## What is not modelled

Floating point rounding (nextafter is modelled on bit patterns, C84), XLA compilation, the derivative rules of individual primitives, random number
generation, garbage collection (except as an event that may come at any time), threads, line breaking by
`wadler_lindig` in pretty printing, and file systems other than names mapped to contents. Where a modelled function calls
one of these it is an arbitrary function (a section variable, universally quantified in the theorem) with laws as premises where needed.
Not covered at all: `_doc_utils.py`, `_caches.py`, `_deprecate.py`, `internal/_str2jax.py` and other small helpers.

## Properties: model and proof

| id | status | what is modelled | how it is proved |
|---|---|---|---|
| C01 | proved | rose trees with `None` as a childless node; `tree_map` with prefix matching; `partition`, `combine` | fusion of mask computation and selection; induction on trees |
| C02 | proved | same | paths as specification; induction on spec and tree |
| C03 | proved | same | induction; errors characterised by structure mismatch |
| C04 | proved | `_apply_update`, `apply_updates` | positions as specification; induction |
| C05 | proved | `hashable_partition`, `hashable_combine` on flattened trees | flatten/unflatten round trip, list induction |
| C06 | partial | `tree_at` on trees of objects with identities; the two copies and the wrapper pass of lines 150-261 | frame and read-back laws by induction over positions; witnesses for the false cases |
| C07 | partial | same | exact acceptance condition |
| C08 | proved | same | simulation between `replace_fn` and `replace` |
| C09 | proved | `tree_equal` loop over leaves, array comparisons with NaN, dtype checks | equivalence with an inductive relation |
| C10 | proved | object graphs, depth first search with memo dictionaries | invariant of the search; specification: two different paths to one object, or a cycle |
| C11 | proved | instances as attribute dictionaries, flatten functions | round trip by list induction |
| C12 | proved | construction with mutable class, arbitrary user programs | induction on the user program |
| C13 | proved | `__hash__`, `__eq__` of Modules | congruence |
| C14 | proved | class registry with C3 linearisation, `_process_annotation` | invariant over sequences of class creations |
| C15 | partial | strict checks in `__new__` | case analysis; invariant over class creations |
| C16 | proved | heap of `State` objects, operations as programs | invariants over operation sequences |
| C17 | proved | same | refinement to a finite map |
| C18 | proved | same | lens laws |
| C19 | proved | `make_with_state`, markers | induction on trees |
| C20 | partial | files as lists of records; serialisation and deserialisation programs | round trip by induction on trees |
| C21 | proved | same | soundness by induction; witnesses |
| C22 | partial | class registry of enumerations | invariant over reachable hierarchies |
| C23 | proved | `while_loop` rewriting, forward pass with online checkpoints | simulation with the plain loop |
| C24 | proved | checkpoint buffer with Stumm-Walther / Wang-Moin rules | invariant of the buffer |
| C25 | proved | backward machine with explicit state, abstract VJPs | refinement to the reverse fold |
| C26 | proved | same | well-founded measure |
| C27 | proved | formula for default checkpoints over integers | arithmetic |
| C28 | proved | nested scans | induction on nesting depth |
| C29 | proved | batched predicate and select | induction on steps |
| C30 | partial | `scan`: the choice of kind and length over any number of arrays (Scan_Model), the loop (Loop_Model) | list induction on the loop; the rows of a step are characterised entry by entry (transposed), the accepted lengths by has_length |
| C31 | proved | axis resolution on trees, tracers batched or not | induction; pointwise meaning |
| C32 | proved | partition by donation mode | case analysis |
| C33 | partial | `branched_error_if`, unvmap | case analysis over all inputs |
| C34 | proved | `Shared` on top of `tree_at` | lens laws |
| C35 | proved | `inference_mode` on top of `tree_at` | induction on trees |
| C36 | proved | sizes and windows | integer arithmetic |
| C37 | partial | `AdaptivePool` windows | arithmetic; witness for the second application |
| C38 | proved | padding arithmetic | integer arithmetic |
| C39 | partial | validation by tuple comparison | exact condition; witness |
| C40 | partial | module-level cache as state | invariant over histories; witness |
| C41 | proved | rationals, abstract Bernoulli | case analysis; expectation |
| C42 | proved | BatchNorm over the State heap, rationals | induction over histories |
| C43 | proved | layer lists | list induction |
| C44 | proved | registry `fn -> index`, transformations | invariant over histories |
| C45 | proved | packing of arguments and outputs of filtered primitives | inductive relation `fills`; mutual induction |
| C46 | proved | jaxprs and their evaluation | induction on size |
| C47 | proved | counter and wrapper | induction on call list |
| C48 | partial | memo table, weak references as events | invariant over histories |
| C49 | proved | `scan_trick` | list induction |
| C50 | partial | store and inspection | list induction; witness |
| C51 | proved | operators on trees | leafwise specification; induction |
| C52 | proved | counter and key folding | injectivity premise |
| C53 | proved | layer sizes and application | list induction |
| C54 | proved | argument lists | list reasoning |
| C55 | proved | filtered grad, jvp, vjp, jacobian, hessian around abstract engines | relations `fills`/`lifts`; mutual induction |
| C56 | partial | flag iteration over body expressions | generic fixed point loop: soundness, termination, divergence |
| C57 | proved | attribute dictionaries | list induction |
| C58 | proved | `Static` leafless nodes | direct |
| C59 | partial | convolutions over a commutative semiring | sums over index ranges, change of variables |
| C60 | partial | constructors of convolution classes | case analysis; witnesses |
| C61 | proved | as C20 | induction with paths |
| C62 | proved | signature binding; jit as a trace table | invariant of the table over call histories |
| C63 | proved | `Lowered`, `Compiled` | direct from C62 model; witness |
| C64 | proved | rotation by angles over a ring | ring identities, sums |
| C65 | proved | tree partition/combine around the rule; JAX passes one optional tangent per array | every step is a leafwise replacement (`Leafwise.v`), composed |
| C66 | proved | tree partition/combine around both rules; flags and optional cotangents per leaf from JAX | every step is a leafwise replacement (`Leafwise.v`), composed |
| C67 | proved | partition, trace, unflatten, combine; tracing a parameter with a soundness law; instance with one-bit arrays | leafwise replacement on trees of pairs (example, actual) |
| C68 | proved | as C67; cache as a list of keys compared with == | leafwise replacement; invariant of the cache |
| C69 | proved | `Attention_Model.v`: lists of rows over an arbitrary type of numbers; Linear as in the MLP model; reshape into heads is chunking of rows; `softmax` subtracts the maximum; `process_heads` an arbitrary function; dropout an arbitrary function of the key and the weights. Dtype promotion of the softmax and jaxtyping shape checks are not modelled. | Matrices are tabulated by functions of their indices (`tab`), every operation maps tables to tables, and the output sum over h*vo entries is regrouped by head using associativity of addition. Masking: `exp` of the masked logit minus the maximum is zero (assumed of `exp` and `fmin`), so sums over positions only see the visible ones. Permutation: sums and maxima over a permuted range. |
| C70 | proved | `Norm_Model.v`: arrays as dtype, shape and row-major entries in the real numbers of the standard library; conversions between dtypes are arbitrary functions applied where `astype` is. No rounding, infinities, NaNs or complex numbers. | List sums are turned into indexed sums (`Sum`); the variance is nonnegative so `maximum(0.0, variance)` does nothing. Mean, variance, shift, scale and boundedness by algebra on sums. |
| C71 | partial | `Norm_Model.v`: the reshape to (groups, channels/groups, ...) is cutting the row-major entries into pieces; `left_broadcast_to` repeats each parameter over its channel. | Induction over groups: entry i of the concatenated normalised pieces is normalised with the statistics of entries i/k*k .. i/k*k+k-1. |
| C72 | proved | `WeightNorm_Model.v`: real entries in row-major order; division by zero is `None` (NaN or infinity in the library); the layer is an arbitrary type with an accessor and an update for the weight. | The sum over all positions with a test for the slice is regrouped into a double sum over the positions of one slice (`Sum_mul`, `Sum_pick`). |
| C73 | proved | `WeightNorm_Model.v`: the reshape to a matrix is arithmetic on positions; the state is an arbitrary type with get and set. | The model iteration equals `step` (functional extensionality). Cauchy-Schwarz for finite sums gives the upper bound and monotonicity; the adjoint identity gives u^T W v = |W^T u|. |
| C74 | proved | `Rnn_Model.v`: both cells over real vectors, elementwise operations with broadcasting of length-one vectors, constructors over arbitrary key splitting and sampling | Vectors as tables of functions; gates by rewriting; bounds by induction over the input sequence from tanh and logistic bounds |
| C75 | proved | `Embed_Model.v`: constructor and call over an arbitrary library indexing function | Case analysis |
| C76 | proved | `Prelu_Model.v`: arrays as functions of multi-indices, NumPy broadcasting | Induction over reversed shapes; uniqueness of the broadcast shape and index |
| C77 | proved | `Buffer_Model.v`: the primitives' batching, forward and transpose rules; straight-line programs over a buffer and JAX's backward pass | Ring identities; induction over the program with the invariant that locations still to be written have a zero tangent |
| C78 | proved | `Buffer_Model.v`: nested buffers, modes for indices out of range | Induction over the nesting |
| C79 | proved | `Vprim_Model.v`: a primitive is a record of rules; `_vprim_p` nests another primitive with axis size and axes; abstract arrays with `take` and `stack` | Induction over the nesting; exchanging the order of finite sums for the transpose |
| C80 | proved | `Unvmap_Model.v`: values inside of nested vmaps (a list of levels and an array for each lane), batching rules run level by level | Induction over the levels; per-entry analysis of minimum and maximum |
| C81 | proved | `Funtree_Model.v`: values with functions whose cells live in a heap; a language of function bodies with its evaluator; the conversion; comparison of converted values | Logical relation between original and converted values over growing heaps; simulation by induction on the number of steps |
| C82 | proved | Callback_Model.v (filter_pure_callback over trees, partition/combine and tree_equal of the earlier models; jax.pure_callback as flatten, compare shapes, unflatten) | C82_arguments, C82_exception, C82_transparent, C82_exact (iff), C82_static_mismatch, C82_shape_mismatch, C82_faithful (count of None shows that no None of the declaration faces an array), C82_places_refuted (witness) |
| C83 | proved | Pmap_Model.v: jax.pmap is modelled by its effect on batches (Vmap_Model.v), with a rank for the check of output axes and an arbitrary choice of device for outputs without axis; one filtered tree per axis in range(-m, m), combined again, as in the code. | C83_exact: if and only if, in terms of one tree of leaves paired with axes. C83_devices: the same device by device against the function on plain values. C83_agrees: every filter_vmap result with something mapped is the filter_pmap result, by way of C31_exact, the same kind of exact description of filter_vmap. C83_kwargs: RuntimeError. C83_same_as_vmap_refuted: integer axes for non-arrays are ignored and batched outputs without an axis accepted. |
| C84 | proved | Nextafter_Model.v: numbers as sign and magnitude (or NaN), bitwise jnp.nextafter, comparison with or without denormals-are-zero | Positions on the line are integers with a gap around zero; next_pos and prev_pos compute the position of the result, the theorems follow by integer arithmetic |
| C85 | proved | Debug_Model.v: backward_nan as an instance of the filter_custom_vjp model (Custom_Model.v) | Instance of C66_rules: the forward rule returns x, the backward rule is computed on the tree of cotangents (filter keeps exactly those there) |
| C86 | partial | Debug_Model.v: values under a stack of transforms as a type-level recursion; announce_jaxpr_p.bind with its rules; transposition | Induction over the stack of transforms; PyTree part by leafwise lemmas |
| C87 | partial | NoinlineRules_Model.v: arrays as shapes and entries, transformations as functions on functions, the four rules; the packing of leaves into a callback | Leafwise lemmas for the trees (partition and combine of the mask), index arithmetic for swapaxes against moveaxis, induction over the flat list for the callback |
| C88 | proved | PoolNd_Model.v: arrays as shapes and entries by multi-index, the rotation of axes around lax.reduce_window, windows as offsets read through padding | Folding over a window equals folding over the entries inside (the initial value is a unit); windows as products of intervals; for the adaptive layers an induction over the axes with operations that may be done on equal parts first |
| C89 | proved | LoopTree_Model.v: trees in which a buffer is a node labelled with its tag, tree_at of TreeAt_Model for wrapping, tree_map of two trees for unwrapping; lanes as in Loop_Model | tree_at is evaluated with the theorems of C06-C08 (edits determine the result); induction over the tree for unwrapping; the loop is shown equal to that of Loop_Model without buffers, so that its correctness lemma applies |
| C90 | proved | Conv_Model (conv_call, jpad, conv_gd) | The extension is specified by its laws (equations per axis) and shown to exist and be unique (C90_extension); the value theorem reduces both code paths (JAX's zero padding; jnp.pad, then 'VALID') to it axis by axis (C90_value). Groups by unfolding both calls (C90_groups); shifts by periodicity of the extension (C90_shift). |
| C91 | partial | Pretty_Model (pdoc: the recursion of wadler_lindig; custom; tree_pdoc) | Induction on objects. Positions in objects and documents are relations (shown_at, doc_at). |
| C92 | proved | Act_Model on top of Vmap_Model: `copies`, `final_copies`, `layer_activation`, `activate`, `run`. | vmap0 computes filter_vmap of a constant function; slices of a stack of copies are the copies (array_laws). C92_activate from C31_pointwise, which now also says that the output axes are those out_axes gives. C92_network by induction over the layers. |
| C93 | proved | Ckpt_Model (unchanged); CkptCost_Spec: a machine with one current value, at most C stored values, and operations advance, store, drop, load and U-turn. | Lower bound: the number of steps below the current U-turn that are neither current nor stored drops by at most one per advance. Schedule: each backward iteration is Turn;Load[;Drop] or Advance[;Store]. Count: closed form of the steps stored by the Stumm-Walther schedule; every gap between stored steps satisfies the linear-placement budget, so that each backward iteration decreases an exact count of the remaining iterations by one. |
| C94 | proved | Init_Model.v: keys as paths of splits; a writer of split and draw events; each constructor and call as in the code. | A split followed by disciplined runs on different children is disciplined (`disciplined_children`, by the order `above` on keys); then structural per constructor, induction on depth for MLP and on nested layers for calls. C94_linear/_mlp/_attention/_recurrent/_conv/_normal give the exact parameters. |
| C95 | proved | Shard_Model.v | Objects are given by their type, dtype and the result of __jax_array__. Case analysis on types and dtypes; the two false expectations have witnesses and an exact description of the dtypes concerned. |
| C96 | proved | Shard_Model.v | with_sharding_constraint is modelled as prefix check, then placing leaf by leaf with an arbitrary, possibly failing function. The specification annotates each leaf with the sharding above it (assigned) and relates the annotated tree to the result leaf by leaf. Induction on the prefix, then on the annotated tree; the theorem on errors names the first leaf that fails. |
| C97 | proved | Method_Model.v | Classes are namespaces with wrapped functions, instances dictionaries, attribute access is object.__getattribute__ with descriptors. The specification looks at the source of the classes (before wrapping). Lemmas: namespaces after class creation and assignment are the wrapped sources; lookup along the MRO commutes with that; prefix/suffix characterisation of magic names. |
| C98 | proved | run of a compiled function as a list of host actions, global variables, logger filters | induction over nested actions; the state after a stretch of the program is its state before plus the last error fired |
| C99 | proved | namespaces in order of assignment; attribute lookup along the MRO; list indexing | induction on the class body; the items given by a relation of their own |
| C100 | proved | Conv_Model: padding_transpose, circular_pad, conv_gd over a commutative semiring | the dilated input is rewritten as a sum over the inputs with at most one term; kernel flipped by a permutation; circular case by arithmetic modulo n*stride |
| C101 | proved | `SerialFile_Model.v`: splitting strings into paths, suffixes, a disk (directories and a map from paths to records), opening for writing and reading, and the traversals of Serial_Model with what has been written kept on errors. | `SerialFile_Props.v`: strings are split at their last dot; the traversal that keeps the written records is shown to agree with `serialise`, so that C20 applies; the list of leaves in order (`jobs`) is an independent specification of what a failed save leaves. |
| C102 | proved | Train_Model composes filter_value_and_grad/filter_grad (Ad_Model), eqx_filter, apply_updates (Filters_Model) into the documented loops; the optimiser is an arbitrary function on lists of leaves. | Train_Spec.descend is the loop on a plain list. Simulation by induction over the batches: after each step the model is the first model with its inexact arrays replaced (fills), so its partition has the same structure and static part and the engine is handed literally the same function; apply_updates on a laid-out list of updates is entrywise addition of the lists. |
| C103 | proved | Train_Model: frozen_step composes eqx_partition, filter_grad of a loss that combines, and apply_updates. | merges d s m: m has at each leaf what one of d, s has. Partition gives parts that merge to the model; updates laid out like the selected part act on the model as on the part; a Boolean specification partitions the new model into the new part and the same rest. Then step-by-step simulation of C102's loop on the selected part. |
| C104 | proved | Ensemble_Model composes filter_vmap (Vmap_Model) with itself as in docs/tricks.md; functions are arbitrary and law-abiding under tracing (`traces`). | Vmap_Proofs2.filter_vmap_full gives elements, sizes and lack of stacked axes; member i of the ensemble is the slice handed to call i by the second filter_vmap (slice_if), so the two transformations compose element by element. |
| C105 | proved | Resume_Model composes filter_eval_shape (Closure_Model, leaves being those of Serial_Model) with save and load (SerialFile_Model); the notebook's file is a list of characters and records. | C68_eval_shape gives the skeleton as the created model with arrays replaced by shapes; trel kept m made implies side_by_side expected m skeleton m (rules X_sds, X_np, X_gen, X_py, X_other), so C20_round_trip and the file lemmas of C101 apply; C21_checked gives the second part, readline of a newline-free line the third. |
| C106 | proved | Surgery_Model: get_weights, init_linear_weight, Symmetric and resolve_symmetric of docs/tricks.md on trees, over the model of tree_at. | The positions of outermost linear layers are computed by recursion and shown ordered, hence their weights separate; C06_put_get and C08_replace_fn then give the edited tree. resolve: induction over the tree, with C06_determined for uniqueness. |
| C107 | proved | ScanLayers_Model: lax.scan as iteration over the index of the first axis, with the checks on lengths and carry type; the layers are C104's ensemble. | C104 gives layer i as the slice of the stacked one; partition and combine are leafwise (Leafwise.v), so element i of the dynamic part combined with the static part is that slice; induction over the indices. |
| C108 | proved | FlatTrain_Model: both loops over an arbitrary step; tree_flatten and tree_unflatten of Tree_Model. | Induction over the data with unflatten_flatten; for the general statement unflatten_recast: unflattening succeeds exactly if the leaves fit, giving the tree with the structure of one and the leaves of the other; C108_any_step_refuted has the steps which change a static field or add a leaf. |
| C109 | proved | Ckpt_Model (as C41, C93); CkptExact_Spec states the cost as two inductive relations without reference to the loop. | A measure on states of the backward loop (cost of the current segment from the carried step, plus the cost of the stored segments) decreases by one with every advance and stays with every U-turn; preserved by saving and loading (exact_step). Bounds by induction over the relation. |
| C110 | proved | BoundedCost_Model | The nest of scans is run on an event log (condition tested, body evaluated, body differentiated at a state, carry saved, carry dropped). Counting is by induction on the level: for an iteration with n steps left min(n, base^d) steps are made, and rounded-up quotients add because all but the last iteration make base^d steps. For the backward pass the stored carries are the states before the iterations, so the reversed lists of states concatenate. C110_loop links the log to bounded_loop of Loop_Model (C28, C29) for batched loops. |
| C111 | proved | RopeAttention_Model composes Attention_Model (process_heads) with Rope_Model: the embedding runs once per vmap, so all heads use one cache; the cache left by the queries' call is the one the keys' call finds. | C111_formula: the call equals the attention formula of C69 with queries and keys replaced by `turned` ones (from C69_process_heads and C40_history_partial, for any history with one theta). C111_relative: the logit at positions (delta+s, delta+S) equals the one at (s, S) (ring computation over the two halves of the vector). C111_padding: masked rows in front change nothing (maximum and sum over delta+n entries whose first delta are fmin and zero). C111_ex instantiates every hypothesis over exact rationals with quarter turns; C111_values shows that the embedding does change the result. |
| C112 | proved | No new model: the models of the two layers compared are those of C58-C60/C90 (convolutions), C36/C37/C88 (pooling), C62 and C92 (Linear and MLP), Sequential, and C69 (attention), each written from its own source file. | AgreeConv_Props: C112_pointwise and C112_average from C90_value/C90_accepts (boxes of one offset; sums with constant weights against C88_avg's windows), C112_transpose by equality of the paddings. AgreePool_Props: the windows of kernel n/t are the parts of C88_adaptive_* (equal as ranges; the orders of the blocks are permutations; maxima are unique). AgreeLayers_Props: induction over the layers for C112_mlp_sequential; C112_one_position from C69_formula, the weights being exp(0)/exp(0). Examples give values, and counterexamples where a premise is dropped (C112_ex_transpose, C112_ex_unequal). |
| C113 | proved | ErrorsAd_Model: _error_jvp as the rule given to Custom_Model's custom_jvp_jvp (lines 160-170), the differentiated call of _error, branched_error_if_impl and branched_error_if on trees of pairs (value, tangent), following the same branches as Errors_Model. | C113_transparent: the rule ignores the tangents of predicate and index and returns those of x (C65_rule); the three outcomes of Errors_Model's error (unchanged, poisoned, stopped) give the events, values and errors; partition and combine act leaf by leaf. C113_trace_nan and C113_nan_modes_differ state the exception: the trace-time branch of branched_error_if_impl maps _nan_like over x, outside the custom rule. C113_ex: a traced and a known predicate in nan mode. |
| C114 | proved | StateFile_Model: the pair (model, state) as a tree (a State is a node with its keys as static data), saved and loaded by SerialFile_Model; unflattening makes a new State object in the heap of State_Model. | C114_round_trip: both processes number the indices alike (C19_make), sets and updates keep keys and order (C17_last_write) and structures (C17_structure gives the premise typed), hence the leaves line up and C20_round_trip and C101_save apply; from_pairs rebuilds the dictionary. C114_order and C114_used_up directly. C114_ex: two indices and a parameter, other markers and parameters in the second process. C114_substate_order_refuted: two substates with the same entries in different orders. |
| C115 | proved | The models of C53 (Mlp_Model), C69 (Attention_Model) and C74 (Rnn_Model); renumbering is a function on the layers' arrays, defined in Symmetry_Props and SymmetryRnn_Props. | C115_units: the layer with renumbered outputs gives the renumbered outputs, neurons commute with renumbering if activations are renumbered too, dot products are invariant (sum over a permutation). C115_heads: the documented formula (C69_formula) for both modules, blocks of rows and columns (blocks_nth), and the sum over heads. C115_gru, C115_lstm: entrywise formulas of C74. C115_weights_alone_refuted: a computed witness with two units of different learnt slopes. |
| C116 | proved | Dtype_Model: JAX's promotion graph with its least upper bounds, and each layer as the sequence of promotions and casts of its __call__. | C116_promotion: the model's promotion is the least upper bound in the reflexive transitive closure of the graph (an order, by computation), in strict mode exactly equal and weak types. C116_kept, C116_kept_complex: case analysis, induction on layers and power iterations. C116_linear, C116_mlp, C116_gru, C116_lstm, C116_attention: promotions are joins of a semilattice, so that the result is the least upper bound of the set of operands. C116_scannable, C116_conv, C116_norms, C116_rope_strict, C116_batch_norm, C116_dropout, C116_prelu, C116_spectral: exact results. C116_strict_complex_refuted: complex LayerNorm and complex attention with a mask raise in strict mode. C116_dropout_integers_refuted: integers change dtype in training. |
| C117 | proved | The model of C42 (BatchNorm_Model). | C117_moments: normalising is affine in each channel; means of affine functions. C117_first, C117_repeated: with the statistics of C42_training. C117_order: sums of rationals do not depend on the order (as fractions, even), so statistics and the whole call agree. C117_inference: C42_inference. C117_later_refuted, C117_training_examples_refuted: computed witnesses. |
| C118 | proved | VmapState_Model: composition of State_Model and Vmap_Model; substate, flattening to a node whose kind encodes the keys, filter_vmap, unflattening, update. | C118_call, C118_closed: substate and update by the lemmas of C18, the vmapped call by filter_vmap_full (C31) and the uniqueness of resolved axes; a closure over the layer traces the closure of the concrete function. C118_run, C118_run_closed: induction on the calls; the substate taken next is the one returned (dictionaries with the same keys and entries are equal). C118_made, C118_lanes: renumbering, initial dictionaries and deletion of initial values commute with taking member i. C118_closed_refuted, C118_number_refuted: computed witnesses. |
| C119 | proved | SharedGrad_Model: leaves with tangents (dual numbers) in the trees of Shared_Model, a loss starting with a call of the Shared layer, a step of gradient descent. | A gradient is a number for each position whose product with the tangents is the tangent of the loss, for all tangents. C119_gradient: a call is a sequence of replacements at placeholders (edited_unique); each adds the product of the gradients below it (dot_put); the vjp of get moves them to the stored tree. C119_shared: the vjp of picking nodes (dot_at). C119_unique: a tangent of one at one position. C119_sum, C119_step: separate positions do not mix. C119_copies_refuted: computed witness. |
| C120 | proved | Ad_Model as for C55 (no model of its own); jvp with dual numbers, vjp and value_and_grad as engines. | C120_transpose: C55_vjp and jvp_args give what each wrapper passes to JAX; the product of trees laid out over the same leaves is the product of the lists (fills_dot), and cotangents laid out in the output against the output's tangents (out_dot), where untraced inexact arrays count as zero. C120_grad: the two differentiated functions agree on all lists of leaves (fills_fun), so the law of jax.value_and_grad applies. C120_directional combines the two. C120_jacobians: both pass the same function. |
| C121 | proved | WrapGrad_Model: resolved_loss over the resolve_symmetric of C106, get_stopped (stop_gradient) and get_symmetric (docs/tricks.md line 69) on numbers with tangents; dot, is_gradient and descend as for C119. | C121_gradient: by induction on the model, the derivative through resolve_symmetric is the product with the wrapped gradient (through); that one exists (wgrad) and is unique where there are numbers (C119_unique) gives the equivalence. C121_stopped and C121_symmetric instantiate it; the transpose of the symmetrisation is by exchanging the two sums over entries. C121_symmetric_step: one step of descent on the matrix. |
| C122 | proved | DataLoader_Model: the generator `dataloader` as resumptions over epoch and start index, with fuel for its loops (None: still looping), the evaluation loader and the loop that sums the batch losses and counts the batches. Permutations are an arbitrary function of the epoch. | C122_batches by induction on the number of batches over (epoch, batch within epoch); C122_epoch: the slices concatenate to a prefix of the permutation; C122_paired from C122_batches; hanging by induction on the fuel; C122_eval by induction on the remaining rows; C122_mean by splitting the sum over the batches (Qc). |
| C123 | proved | InitApply_Model: make_model over eqx_partition/eqx_combine, tree_map, and apply_step/apply_train, a training loop that knows the parameters and apply_fn only; compared with train of C102. | C123_apply from C01; C123_tree_map by induction on the tree; C123_train: invariant 'the model is the original with other parameters' (fills), each step through grad_at, update_at, apply_at of C102 and a lemma that apply_updates and tree_map of addition agree on the parameters (apply_dyn). |
| C124 | proved | Rollout_Model: jax.lax.scan with its checks of carries and values, rollout over eqx_partition/eqx_combine, call_step for the documented step. | Independent relation graft (m0 with the arrays of m1). graft_parts: its array part is that of m1, its static part that of m0, array types agree; graft_ex: agreeing types suffice. Invariant: the carry is the array part of a module whose static part is the original one; induction on the inputs. |
| C125 | proved | UNet_Model: the loops of UNet.__init__ with their key counters and resolutions, ResnetBlock as its widths and flags, __call__ on shapes with the stack of skip connections and the chain of key splits. | Blocks without keys as nested levels (dcore, ucore), equal to the loops' output by induction (the upward loop over the reversed list); a call seen as level, inner levels, level; induction on the levels with the claim that the inner part returns its input's shape and consumes what it pushed, or fails. Keys: the counter's values are consecutive; chain of splits gives k ++ 0^i ++ [1]. |
| C126 | proved | Bert_Model: attention block with the outer-product mask, feed-forward block, the loop over layers, embeddings and pooling, composed of call_mha and call_linear. | keep mask selects real rows. From C69_formula both calls are tables of sums over positions; sums over all positions are sums over real ones (masked weights are exp of fmin minus a maximum, zero), maxima likewise (vmax returns one of its arguments). Induction on layers. |
| C127 | proved | Vit_Model: rearrange as nested lists over an image given by its sizes and pixels; blocks, positional embedding with broadcasting, class token, composed of call_mha and call_linear; constructors with keys as paths; keys of training; batches of epochs with fuel for the endless generator; test batches and accuracy over Q. | Patches by index arithmetic on flat_map with rows of one length. Permutation: C69_permutation for keys and values, C69_formula for the query rows, everything else acts row by row; induction on blocks. Keys: the first nonzero index of a path gives step and example. Batches: induction on steps, generalised over the rest of an epoch. |
| C128 | proved | Gan_Model: layers as data with sizes by Conv_Model.out_size; the loss as the list of its broadcast entries; training symbolically, with parameters numbered by their updates, states as lists of what they have seen, positional arguments and results in the order of the source. | Sizes: one lemma per kind of layer (halving, doubling, minus and plus 3), then rewriting. Loss: lengths and sums of flat_map, then field arithmetic over Q. Training: induction on the number of steps, all components at once; noise keys differ in length. |
| C129 | proved | Parallel_Model: arrays as numbered buffers with a place, deleted or not; filter_shard copying what is elsewhere; calls of compiled functions with donated and kept arguments; the loops of the example. Batches of the evaluation from DataLoader_Model (C122). | Invariant by induction on batches: the arrays of model and optimiser state are distinct, below the next number and not deleted; results are consecutive new numbers. Calls: decidable checks against their meaning. Evaluation of a data set: C122_eval gives the sizes of the batches, then divisibility. |
| C130 | proved | Diffusion_Model: shapes of the mixer with Conv_Model.out_size; losses, times and drift over the reals of the standard library; keys as paths of (number asked for, index); the printing loop over Q. | Shapes: case distinctions on the checks, division lemmas. Reals: field, sqrt_sqrt, exp_plus; derivatives by the rules of the standard library. Keys: closed form by induction on steps, then injectivity. Prints: induction on steps, generalised over the open window. |
| C131 | proved | Classify_Model: shapes with Conv_Model.out_size and Pool_Model; log_softmax, take_along_axis, argmax and evaluation over lists of reals; the GRU cell of Rnn_Model scanned over the inputs. | Shapes by linear arithmetic. Log-softmax: the shift by the maximum cancels. Accuracy: two different classes have probabilities with sum at most 1, so a wrong answer has probability at most 1/2 for its label. Evaluation: the batches of C122_eval split into full ones and the last. Network: C74_gru_bounded for the hidden state, monotony of the logistic function. Derivative by the rules of the standard library. |
| C132 | proved | Lru_Model: a table of entries in the order of their use for every cache, a counter for objects, events for calls and clearings. | Invariant: the keys of a cache are the first maxsize keys of the history in the order of their last use (without calls that raised). Moving a key to the front commutes with cutting, in both cases. The position of a key in that order is the number of distinct keys since. |
| C133 | proved | Decorate_Model: dictionaries in order, the signature of every decorator, Python's binding of keyword arguments, functools.partial. | Filtering by key commutes with merging dictionaries, and binding the options after merging the bound options gives the same values; so one stage is a merge. Induction over stages; an unknown name persists under merging. The tables by cases. |
| C134 | proved | Config_Model: the environment as a function to strings, Python's int on lists of characters, the settings as a record. | The reader of digits against a grammar of groups by induction on the length; strip is characterised by a decomposition. The rest by cases. |
| C135 | proved | JitPatch_Model: programs as trees of calls, run with the number of compiled functions around; objects with a type, arrays and __wrapped__. | Induction over trees of calls with the runs at two depths related by whether they are zero. The warning by induction along __wrapped__. |
| C136 | proved | DocUtils_Model: parameters with name, kind and default, the loop of inspect.Signature; classes made by str2jax as positions in a list. | The loop of inspect against a condition on pairs of parameters, by induction with the state generalised; the condition is inherited by sublists. Strings by induction over the calls. |

## Findings

Behaviour of the code that differs from a property, from its documentation, or from what a reader would
expect, each with a machine-checked witness:

* WeightNorm of a layer with a slice of zeros (for instance a zero-initialised weight) gives NaN (C72); so does SpectralNorm of a zero weight (C73).
* GroupNorm does not check the declared number of channels: with one declared channel parameters broadcast over all channels of the input, and without parameters the declaration is ignored (C71). LayerNorm, RMSNorm and GroupNorm convert the result back to the dtype of the input, also if that is an integer dtype (C70).
* A Module deriving first from a plain class that inherits an `__init__` gets no generated `__init__`, even if Python's lookup along its MRO would find a generated one first (C15).
* MultiheadAttention: a query for which every position is masked attends uniformly to all the masked positions (C69).
* `filter_closure_convert` traces with the weak types of the example but ignores them when called, and compares non-arrays with `==` (1, 1.0, True), so a call can return something else than the function; `cached_filter_eval_shape` confuses 1, 1.0 and True and drops weak types (C67, C68). `filter_eval_shape` raises if the function returns a ShapeDtypeStruct.
* `checkpointed_while_loop(max_steps=0)` with default checkpoints raises ValueError (C27); hence so does `scan(kind="checkpointed")` over arrays of length 0, unless the number of checkpoints is given (C30).
* `ConvTranspose` compares output_padding and stride as tuples, lexicographically (C39); `ConvTranspose3d` drops `dtype`, and `in_channels % groups` is not checked (C60); the documented transposition recipe fails for two or more groups (C59).
* The RoPE cache key lacks `theta` (C40).
* `inspect_dce` never resets `new_leaves`: with two entries containing arrays it raises ValueError (C50).
* `tree_at` accepts duplicate selections and selections of a `None` nested in another selected node; `is_leaf` accepting tuples refuses sound selections (C06, C07).
* `State.update` has no structure check (C17); `make_with_state` gives a shared index two markers (C19).
* `tree_equal` with `rtol` is not symmetric (C09).
* `Shared` with overlapping nodes leaks (C34); `inference_mode` with two `inference=None` raises (C35).
* A Module field named like a wrapper attribute gets a stale value on unflattening (C11); `Partial` rejects the keyword `self` (C54).
* Strict modules: abstract redeclaration, diamonds and magic methods escape the override check (C15); the abstract variable check runs after `__init__` (C14).
* `Enumeration`: an overridden message comes back in the next subclass (C22).
* `Pool` accepts padding equal to the kernel, refuses some ceil modes (C36); `AdaptivePool` applies the operation a second time when the target divides the size (C37).
* Serialisation: big integers, NumPy bfloat16, float8 and typed keys do not round trip (C20); scalars convert silently (C21).
* Caches compare static values with `==`: `1 == True` conflates (C44, C48, C62); `Compiled` ignores later static arguments (C63).
* `error_if` with a batched predicate can report the message of an element that did not fail (C33).
* `Sequential` slicing and concatenation change the keys layers get (C43).
* `assert_max_traces` counts calls that fail to bind (C47); `compile_cache` `delete` on wrapped functions removes another entry (C48).
* omega compares `is_leaf` functions by bytecode only (C51); `finalise_jaxpr` leaves open jaxprs alone (C46).
* A ShapedArray among static arguments breaks transposition of filtered primitives; `_combine` misses a left-over `None` (C45). Batching of noinline conflates indices (C44).
* BatchNorm: training outside of its axis, or with another dtype, raises after consuming the state; inference before training uses uninitialised memory (C42).
* The perturbation analysis of checkpointed loops need not terminate if the body returns one buffer in place of two (C56).
* An `LSTMCell` with one hidden unit accepts cell vectors of any size and returns vectors of that size (C74). `PReLU` results take the joint shape with the slope, not always the documented shape of the input (C76).
* `buffer_at_set` on plain arrays ignores keyword arguments such as `mode` when writing (C78). The initial contents of loop buffers get cotangents at overwritten locations (C77).
* Transposing a batched `create_vprim` primitive with respect to an unbatched argument raises instead of summing (C79).
* `nonbatchable(allow_constant_across_batch=True)` checks only the innermost batched level (C80). `closure_to_pytree`: functions that differ only in default arguments compare equal, so that `filter_jit` would reuse the wrong compilation; self-referring local functions recurse forever; `nonlocal` writes are lost (C81).
* C82: `filter_pure_callback` accepts a callback whose arrays sit where the declaration has None: declared `(None, struct)`, returned `(x, None)`, result `(None, x)`. Static parts are compared after arrays became None and JAX compares only the flattened arrays.
* `filter_pmap` ignores an integer axis given for a non-array argument, and returns one device's value of an output with axis None without checking that it is the same on all devices; `filter_vmap` raises in both cases (C83).
* nextafter and prevbefore assume denormals compare as zero: on a backend that keeps denormals, nextafter(0) skips every denormal, and nextafter(0) > nextafter(least denormal), so the function is not monotone (C84_denormals_refuted).
* announce_transform: the transpose rule takes exactly one operand (`def _transpose(ct, p, *, ...)`), so reverse-mode differentiation of a PyTree with two or more differentiated arrays raises TypeError (C86_reverse_refuted); symbolic zero cotangents are passed to bind, which refuses them.
* backward_nan with terminate=True raises ValueError (`jnp.stack([])`) if its backward rule is run with symbolic zero cotangents only (C85_no_cotangent_refuted).
* noinline: `_move_to_front` exchanges the batch axis with the first axis (`jnp.swapaxes(input, 0, batch_axis)`) instead of moving it to the front, so that under vmap with an axis of 2 or more the wrapped function silently gets slices with permuted axes (C87_batch_refuted, exact description in C87_batch_exact).
* Pool: padding equal to the kernel size is accepted (the check is `max(p) > k`), so that whole windows can lie in the padding; MaxPool then returns -inf (C88_window_in_padding). With less padding no window is empty, whether or not use_ceil is set (C88_window_nonempty).
* Conv (docstring, lines 149-151): 'SAME' is said to produce an output of the same size as the input; with a stride it does not (C90_same_size_refuted).
* tree_pformat (lines 56-61): inside a jax.tree_util.Partial or a custom_jvp/custom_vjp function, wl.pdoc is called without the options: truncate_leaf, struct_as_array and short_arrays=False are ignored there (C91_truncate_refuted, C91_short_refuted).
* C93: the documentation of checkpointed.py (lines 19-23) says the online schedule matches the offline one for n <= (C+1)(C+2)/2; at equality it does not (C = 2, n = 6: 6 evaluations against 5). The comment at lines 213-217 has the right, strict, bound.
* Sequential documents its `key` argument as ignored; it is split and passed to the layers (C94_call, C43).
* GRUCell and LSTMCell with hidden_size=0 and Conv/ConvTranspose with no input channels or an empty kernel raise ZeroDivisionError while Linear with in_features=0 is accepted (C94_recurrent, C94_conv, C94_linear).
* is_inexact_array judges a NumPy array by NumPy's dtype hierarchy, in which bfloat16 and the float8 types are not inexact: the same array is inexact as a JAX array and not as a NumPy array (C95).
* is_inexact_array_like calls __jax_array__ on whatever has that attribute. A class that defines it for its instances has it too, so the predicate raises TypeError on the class object while is_array_like accepts it (C95).
* m.__call__ (any magic method) and methods inherited from classes that are no Modules are not BoundMethods: as pytrees they are single opaque leaves, so transformations do not see the parameters of m through them (C97).
* A BoundMethod cannot be called with a keyword argument named self, which Python's bound methods allow if the function takes it (C97).
* `error_if` in NaN mode leaves arrays unchanged whose dtype numpy does not count as inexact, integer or boolean (bfloat16), so the error passes unnoticed; breakpoint mode fails on them (C33).
* The message of a run-time error travels through module variables that are never reset: with two errors in one run, or a later exception that quotes one, a wrong message is reported (C98).
* C99: indexing a subclass of a `ContainerMeta` class with an inherited name (`Sub[Sub.name]`) raises IndexError or returns the message of another item, because `reverse_lookup` is rebuilt from the subclass's own body while the inherited attributes keep the numbers of the base class.
* Saving opens (and so empties) the file before anything is checked: a save that fails, e.g. because of a typed random key or a `filter_spec` that does not fit, destroys the checkpoint that was there (C101_failed, C101_old_contents_lost).
* examples/mnist.ipynb passes eqx.filter(model, eqx.is_array) to the optimiser: with an integer array in the model the structures of gradients and parameters differ and every step is a ValueError (C102_is_array); docs/faq.md has is_inexact_array.
* C108: the low-overhead training loop of docs/tricks.md silently differs from the plain loop if the step changes a static field of the model (the change is undone), and raises ValueError if it changes the number of leaves.
* C109: the documentation of checkpointed.py (lines 23-24) says that beyond (C+1)(C+2)/2 steps the cost still has similar asymptotic complexity to the offline version. The backward pass places checkpoints at midpoints (out_binomial, line 614, is not binomial), which for a fixed number of checkpoints costs Theta(n^2) evaluations, against at most n^(3/2) offline for C = 2 and n a square (C109_at_least, C109_asymptotic_refuted). A segment of l steps with log2(l) or more free slots costs at most l log2(l) / 2.
* C113: in nan mode a failing error_if with a traced predicate returns NaN with the tangents of its argument, whereas one resolved while tracing returns NaN with zero tangents (C113_nan_modes_differ): the same program has different gradients depending on when its predicate becomes known.
* C114: saving (model, state) with a state that has been used up raises only after the file has been opened for writing: an earlier checkpoint under that name is lost (C114_used_up).
* C114: State objects with equal entries in different orders (substates of pytrees that list layers in different orders) are interchangeable in every method of State, but saving one and loading it into the other exchanges values silently (C114_substate_order_refuted).
* C30: scan takes every kind other than "lax" for "checkpointed", misspelt kinds and "bounded" included, whereas while_loop refuses unknown kinds (C30_unknown_kind_refuted).
* BatchNorm raises in training whenever the batch is not of the dtype of its parameters (a batch in half precision and parameters in single precision: TypeError from lax.select; the other way round: ValueError from State.set), while the other norms cast, Linear promotes, and BatchNorm itself promotes in inference mode (C116_batch_norm).
* LayerNorm, GroupNorm, RMSNorm and rotary embeddings cast back to the input's dtype, so that integer inputs give results truncated to integers, without an error (C116_norms).
* In training BatchNorm normalises with the running statistics, into which the batch has just been mixed, so that only the first training call standardises its batch (C117_first, C117_later_refuted).
* The documented way of calling a vmapped stateful layer, filter_vmap(layer)(x, substate), closes over the layer: its arrays are not mapped, so it is only right for layers without parameters (C118_closed_refuted). A StateIndex whose initial value is a Python number cannot be used in a vmapped layer (C118_number_refuted).
* examples/train_rnn.ipynb, examples/parallelism.ipynb: the training data loader loops forever without yielding if the batch size exceeds the size of the dataset (C122_hangs_refuted).
* examples/parallelism.ipynb: the evaluation averages the batches' mean losses, so rows of a smaller last batch weigh more (C122_mean_refuted).
* docs/faq.md, rollout: changes of static leaves of a module inside a scan are lost silently (C124_static_refuted).
* examples/score_based_diffusion.ipynb: the data loader leaves out a full batch of every epoch if the batch size divides the size of the dataset, and loops forever if they are equal (C122_diffusion_epoch_refuted, C122_diffusion_hangs_refuted).
* examples/unet.ipynb: num_res_blocks = 1 fails with an assertion; data sizes not divisible by 2**(levels - 1), an odd hidden size: reported only at the call, as shape errors (C125_call, C125_odd).
* examples/bert.ipynb: if the first token is padding the pooled output depends on the amount of padding (C126_first_padding_refuted).
* examples/vision_transformer.ipynb: all attention blocks are made from one key and start equal (C127_same_blocks).
* examples/vision_transformer.ipynb: testing draws the first batch of a new shuffle every time, so some examples may be tested repeatedly and others never (C127_test_once_refuted).
* examples/deep_convolutional_gan.ipynb: the loss averages over all pairs of predictions and labels (shapes (b,1,1,1) and (b,) broadcast); harmless there as all labels are equal (C128_loss_pairs, C128_loss, C128_loss_mixed_refuted).
* examples/deep_convolutional_gan.ipynb: Generator and Discriminator take the image size but work for 64 by 64 images only (C128_generator, C128_discriminator).
* examples/parallelism.ipynb: evaluation fails if the devices do not divide the rows of the last, smaller batch, although only the batch size is said to have to be a multiple (C129_eval_batches).
* examples/score_based_diffusion.ipynb: make_step takes the next key as jr.split(key, 1)[0] from the key that batch_loss_fn also splits in two; where the i-th key of a split does not depend on the number asked for, the time key of a step is the training key of the next (C130_keys_partitionable_refuted).
* examples/score_based_diffusion.ipynb: the first printed loss is that of one step, the others are averages over print_every steps (C130_prints).
* examples/mnist.ipynb: evaluate divides the sum of the batch averages by the number of batches; 10000 is not a multiple of 64, so the images of the last batch count four times (C131_evaluate, C131_evaluate_mnist_refuted).
* C135: with EQX_ON_ERROR=breakpoint, `filter_jit(f).lower(...)` raises an AttributeError, since the replaced jax.jit returns a plain function without `lower`; for the same reason `jax.jit(layer)` as an attribute is not warned about. Independently, a list of transformed layers assigned in a custom `__init__` is not warned about, while the same list as an argument of a generated one is.

## Mutation testing

`seeded/LOG.jsonl` records edits of the model that imitate bugs: the definition, the edit, the claim
it breaks and the theorems that then fail to check. Edits are made in a scratch copy; the theorem files are rebuilt with the
edited model. Entries with an id starting with `auto:` come from operators applied everywhere in the model files (numbers, comparisons,
connectives, kinds of exceptions, constructors): of these only the first proof that fails is recorded, and edits that do not type-check
are left out; for those that no proof notices a reason is given, or the theorem added because of it.


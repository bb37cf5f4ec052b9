{
 "claims": [
  {
   "property": "C01",
   "status": "proved",
   "theorems": [
    "C01_partition_combine_identity",
    "C01_partition_combine_identity_is_leaf",
    "C01_is_leaf_unrestricted_refuted",
    "C01_spec_inside_leaf_refuted"
   ],
   "note": "The is_leaf variant needs is_leaf to look only at the root of an object and the spec not to reach inside such leaves; two *_refuted theorems show both conditions are necessary."
  },
  {
   "property": "C02",
   "status": "proved",
   "theorems": [
    "C02_partition_positions",
    "C02_filter_is_half",
    "C02_accepts_exactly_valid_specs"
   ],
   "note": ""
  },
  {
   "property": "C03",
   "status": "proved",
   "theorems": [
    "C03_combine_first_value",
    "C03_combine_raises_iff_mismatch",
    "C03_combine_regroup",
    "C03_combine_no_trees"
   ],
   "note": ""
  },
  {
   "property": "C04",
   "status": "proved",
   "theorems": [
    "C04_apply_updates_positions",
    "C04_no_updates_is_identity",
    "C04_sequential_updates_add_up"
   ],
   "note": ""
  },
  {
   "property": "C05",
   "status": "proved",
   "theorems": [
    "C05_pack_unpack_identity",
    "C05_pack_positions",
    "C05_filter_positions",
    "C05_retraced_leaves_land_in_place"
   ],
   "note": ""
  },
  {
   "property": "C06",
   "status": "partial",
   "theorems": [
    "C06_frame",
    "C06_frame_replace_fn",
    "C06_put_get",
    "C06_put_get_single",
    "C06_determined",
    "C06_repeated",
    "C06_read_back_refuted"
   ],
   "note": "As stated (for every selection) the property is false: a repeated selection reads back only the last replacement (C06_read_back_refuted), a nested None selection is misdirected (C07_nested_none_refuted). For all selections without nesting the result is fully determined (C06_put_get, C06_repeated, C06_determined); for arbitrary where functions the frame condition holds (C06_frame)."
  },
  {
   "property": "C07",
   "status": "partial",
   "theorems": [
    "C07_accepts_iff",
    "C07_accepts_single_iff",
    "C07_no_none",
    "C07_one_of_replace",
    "C07_errors",
    "C07_not_sequence",
    "C07_duplicate_refuted",
    "C07_nested_none_refuted",
    "C07_is_leaf_tuple_refuted"
   ],
   "note": "As stated the property is false of the code: duplicates and a None nested in another selected node are accepted (two _refuted theorems), and is_leaf accepting tuples refuses sound selections. The exact acceptance condition is C07_accepts_iff / C07_accepts_single_iff."
  },
  {
   "property": "C08",
   "status": "proved",
   "theorems": [
    "C08_replace_fn",
    "C08_replace_fn_single",
    "C08_invisible",
    "C08_identity",
    "C08_commute",
    "C08_commute_total",
    "C08_distinct_tuple_refuted"
   ],
   "note": "replace_fn is required not to tell () from its private stand-in; C08_distinct_tuple_refuted shows that this is needed."
  },
  {
   "property": "C09",
   "status": "proved",
   "theorems": [
    "C09_equal_iff",
    "C09_reflexive",
    "C09_symmetric",
    "C09_pairwise",
    "C09_python_bool",
    "C09_jax_array",
    "C09_tolerance_symmetry_refuted"
   ],
   "note": ""
  },
  {
   "property": "C10",
   "status": "proved",
   "theorems": [
    "C10_passes_iff",
    "C10_terminates",
    "C10_message_cycle",
    "C10_message_duplicate",
    "C10_cycle_raises"
   ],
   "note": ""
  },
  {
   "property": "C11",
   "status": "proved",
   "theorems": [
    "C11_flatten",
    "C11_unflatten",
    "C11_roundtrip",
    "C11_keys",
    "C11_wrapper_raises",
    "C11_wrapper_field_refuted"
   ],
   "note": "Needs field names distinct from the five wrapper names; C11_wrapper_field_refuted shows the stale copy wins otherwise."
  },
  {
   "property": "C12",
   "status": "proved",
   "theorems": [
    "C12_construct",
    "C12_missing",
    "C12_exact",
    "C12_failed",
    "C12_only_fields",
    "C12_undeclared_raises",
    "C12_frozen",
    "C12_frozen_raises",
    "C12_set",
    "C12_unset_skipped"
   ],
   "note": ""
  },
  {
   "property": "C13",
   "status": "proved",
   "theorems": [
    "C13_equal_hash",
    "C13_hashable"
   ],
   "note": ""
  },
  {
   "property": "C14",
   "status": "proved",
   "theorems": [
    "C14_methods",
    "C14_mixin_refuted",
    "C14_errors",
    "C14_force",
    "C14_sets",
    "C14_refused_iff",
    "C14_instantiable_iff",
    "C14_order"
   ],
   "note": "Annotation names are distinct within a class (they are dictionary keys). C14_order: the AbstractVar check runs only after __init__. C14_methods: abstract methods are decided by the first definition along the MRO if that belongs to a Module; abstract methods of ordinary mixin classes do not count (C14_mixin_refuted). C14_errors: instantiation adds only TypeError to what __init__ raises."
  },
  {
   "property": "C15",
   "status": "partial",
   "theorems": [
    "C15_errors",
    "C15_plain_base",
    "C15_bases",
    "C15_ancestors",
    "C15_no_concrete_subclassed",
    "C15_override_partial",
    "C15_names",
    "C15_redeclared_refuted",
    "C15_diamond_refuted",
    "C15_magic_refuted",
    "C15_fields_refuted",
    "C15_generated_init",
    "C15_lookup_init_refuted",
    "C15_field_lookup"
   ],
   "note": "The clause 'at most one concrete implementation along the MRO' is false of the code: an abstract redeclaration in between, two bases with different implementations, and magic methods are all accepted (three _refuted theorems), and the field rule only counts fields (C15_fields_refuted). Proved: the rules on bases, ancestors, names, and the exact override rule per base. C15_errors: a class statement can only raise TypeError, or NotImplementedError for string annotations naming AbstractVar."
  },
  {
   "property": "C16",
   "status": "proved",
   "theorems": [
    "C16_set_consumes",
    "C16_update_consumes",
    "C16_dead_raises",
    "C16_failure_changes_nothing",
    "C16_only_writes_kill",
    "C16_linear",
    "C16_clone",
    "C16_rejects",
    "C16_unflatten_rejects"
   ],
   "note": ""
  },
  {
   "property": "C17",
   "status": "proved",
   "theorems": [
    "C17_last_write",
    "C17_get",
    "C17_structure",
    "C17_keys_distinct",
    "C17_foreign_update_refuted"
   ],
   "note": "Structures are stable in every program whose from-scratch states respect the typing; C17_foreign_update_refuted: update has no structure check, so a foreign state with colliding markers changes a structure."
  },
  {
   "property": "C18",
   "status": "proved",
   "theorems": [
    "C18_substate",
    "C18_substate_contents",
    "C18_update",
    "C18_update_contents",
    "C18_get_put",
    "C18_put_get"
   ],
   "note": ""
  },
  {
   "property": "C19",
   "status": "proved",
   "theorems": [
    "C19_make",
    "C19_make_ok",
    "C19_make_twice",
    "C19_deterministic",
    "C19_number",
    "C19_delete_by_tree_at"
   ],
   "note": ""
  },
  {
   "property": "C20",
   "status": "partial",
   "theorems": [
    "C20_round_trip",
    "C20_round_trip_specs",
    "C20_big_int_refuted",
    "C20_np_bfloat16_refuted",
    "C20_float8_refuted",
    "C20_key_refuted"
   ],
   "note": "Proved for every tree, is_leaf and prefix tree of specifications, and for the default ones with the leaf kinds listed in `expected`. False for Python ints of 64 bits and more, NumPy bfloat16 arrays, JAX float8 arrays and typed PRNG keys (four _refuted theorems; each fails with an exception, never silently)."
  },
  {
   "property": "C21",
   "status": "proved",
   "theorems": [
    "C21_checked",
    "C21_structure",
    "C21_scalar_converts",
    "C21_scalar_shape_converts",
    "C21_narrows",
    "C21_trailing"
   ],
   "note": "Arrays only are compared: scalars are converted to the type in like (C21_scalar_converts, C21_scalar_shape_converts), 64-bit arrays are narrowed without x64 (C21_narrows), trailing records are ignored (C21_trailing)."
  },
  {
   "property": "C22",
   "status": "partial",
   "theorems": [
    "C22_numbering",
    "C22_promote",
    "C22_promote_by_name",
    "C22_promote_reject",
    "C22_promote_compose",
    "C22_message_rule",
    "C22_own_message",
    "C22_getitem",
    "C22_getitem_other",
    "C22_same_message_partial",
    "C22_message_refuted",
    "C22_mixin_refuted",
    "C22_where",
    "C22_where_reject",
    "C22_eq",
    "C22_eq_other",
    "C22_reserved",
    "C22_missing",
    "C22_create_errors",
    "C22_promote_errors"
   ],
   "note": "Numbering, promotion by name, rejection, composition and where are proved for every reachable hierarchy. The 'same message' clause is false: an overridden message comes back in the next subclass (C22_message_refuted); C22_message_rule states exactly which message wins. A direct non-enumeration base is not refused (C22_mixin_refuted)."
  },
  {
   "property": "C23",
   "status": "proved",
   "theorems": [
    "C23_while_loop_value",
    "C23_checkpointed_forward",
    "C23_checkpointed_forward_steps",
    "C23_rewritten_loop_stops",
    "C23_refused"
   ],
   "note": ""
  },
  {
   "property": "C24",
   "status": "proved",
   "theorems": [
    "C24_buffer_invariant",
    "C24_writes_in_range"
   ],
   "note": ""
  },
  {
   "property": "C25",
   "status": "proved",
   "theorems": [
    "C25_exact_gradient",
    "C25_backprop_is_transpose"
   ],
   "note": ""
  },
  {
   "property": "C26",
   "status": "proved",
   "theorems": [
    "C26_backward_states",
    "C26_backward_terminates",
    "C26_single_sweep"
   ],
   "note": ""
  },
  {
   "property": "C27",
   "status": "proved",
   "theorems": [
    "C27_default_checkpoints",
    "C27_explicit_checkpoints",
    "C27_zero_steps_default"
   ],
   "note": ""
  },
  {
   "property": "C28",
   "status": "proved",
   "theorems": [
    "C28_bounded_loop",
    "C28_bounded_edge_cases"
   ],
   "note": ""
  },
  {
   "property": "C29",
   "status": "proved",
   "theorems": [
    "C29_batched_loop",
    "C29_batch_is_map"
   ],
   "note": ""
  },
  {
   "property": "C30",
   "status": "partial",
   "theorems": [
    "C30_scan_partial",
    "C30_scan_bad_length",
    "C30_empty_refuted",
    "C30_several",
    "C30_lengths_refused",
    "C30_unknown_kind_refuted"
   ],
   "note": "Proved for every length of at least 1 (C30_scan_partial). For length 0 the outcome is determined by C30_empty_refuted: with checkpoints=None or \"all\" a ValueError is raised; an explicit number of checkpoints gives the fold."
  },
  {
   "property": "C31",
   "status": "proved",
   "theorems": [
    "C31_exact",
    "C31_resolve",
    "C31_resolve_at",
    "C31_if_array",
    "C31_named",
    "C31_pointwise",
    "C31_sizes",
    "C31_kwargs",
    "C31_assertion"
   ],
   "note": ""
  },
  {
   "property": "C32",
   "status": "proved",
   "theorems": [
    "C32_modes",
    "C32_donated"
   ],
   "note": "Donation also covers the arrays inside the function object itself, which the modes' names do not mention."
  },
  {
   "property": "C33",
   "status": "partial",
   "theorems": [
    "C33_quiet",
    "C33_trace_raise",
    "C33_run",
    "C33_trace_nan_partial",
    "C33_trace_nan_fails",
    "C33_trace_breakpoint",
    "C33_unknown_mode",
    "C33_error_if",
    "C33_batch_message_refuted",
    "C33_trace_nan_refuted",
    "C33_no_arrays_refuted",
    "C33_dtype_refuted"
   ],
   "note": "Proved for unbatched predicates and for the decision table of modes. Refuted parts: with a batched predicate the message of the largest index may belong to an element that did not fail (C33_batch_message_refuted); on_error='nan' at trace time fails on non-array leaves (C33_trace_nan_refuted); a tree without arrays is accepted when the predicate is Python False (C33_no_arrays_refuted). C33_trace_breakpoint: two breakpoints are opened. In NaN mode arrays whose dtype numpy counts as neither inexact, integer nor boolean (bfloat16) pass unchanged, and breakpoint mode fails on them (C33_dtype_refuted)."
  },
  {
   "property": "C34",
   "status": "proved",
   "theorems": [
    "C34_call",
    "C34_update",
    "C34_mismatch",
    "C34_overlap_refuted"
   ],
   "note": ""
  },
  {
   "property": "C35",
   "status": "proved",
   "theorems": [
    "C35_sets_all",
    "C35_last_wins",
    "C35_idempotent",
    "C35_none_refuted"
   ],
   "note": ""
  },
  {
   "property": "C36",
   "status": "proved",
   "theorems": [
    "C36_shape",
    "C36_ceil_is_ceil",
    "C36_init",
    "C36_init_seq",
    "C36_init_refused",
    "C36_values",
    "C36_windows_meet_input",
    "C36_ceil_covers",
    "C36_padding_only_refuted",
    "C36_ceil_refused_refuted",
    "C36_rank_refused",
    "C36_values_refused",
    "C36_errors",
    "C36_windows_refused",
    "C36_mixed"
   ],
   "note": "Sizes and refusals for any number of axes; window contents on one axis. Refuted: a padding equal to the kernel is accepted and yields windows made of padding only; use_ceil is refused when padding + stride exceeds the kernel even though a shorter padding would do."
  },
  {
   "property": "C37",
   "status": "partial",
   "theorems": [
    "C37_windows",
    "C37_defined_iff",
    "C37_once_partial",
    "C37_twice_refuted",
    "C37_target",
    "C37_target_error",
    "C37_axes",
    "C37_refused",
    "C37_axis_refused"
   ],
   "note": "Windows proved for all sizes and any number of axes. The operation is applied a second time to each result when the target divides the size (C37_twice_refuted); the property holds for operations that are the identity on scalars (C37_once_partial)."
  },
  {
   "property": "C38",
   "status": "proved",
   "theorems": [
    "C38_size_explicit",
    "C38_size_same",
    "C38_conv_inverts_explicit",
    "C38_conv_inverts_same",
    "C38_every_size_reached"
   ],
   "note": "Sizes for any number of axes; Conv maps the size back for every 0 <= output_padding < stride, and every input size of Conv is reached by exactly one output_padding."
  },
  {
   "property": "C39",
   "status": "partial",
   "theorems": [
    "C39_reject_sound",
    "C39_ints",
    "C39_exactly",
    "C39_refuted"
   ],
   "note": "Refuted: lines 504-506 compare whole tuples, so stride (2,1) with output_padding (1,5) is accepted. Rejections are sound, and the check is complete when both are integers."
  },
  {
   "property": "C40",
   "status": "partial",
   "theorems": [
    "C40_construct",
    "C40_history_partial",
    "C40_theta_refuted"
   ],
   "note": "Proved when all embeddings evaluated share theta; C40_theta_refuted: the module-level cache is keyed by embedding size and dtype only, so a second embedding with another theta reuses the first one's table."
  },
  {
   "property": "C41",
   "status": "proved",
   "theorems": [
    "C41_inference",
    "C41_training",
    "C41_certain",
    "C41_unbiased",
    "C41_constructor"
   ],
   "note": ""
  },
  {
   "property": "C42",
   "status": "proved",
   "theorems": [
    "C42_inference",
    "C42_channels",
    "C42_training",
    "C42_history",
    "C42_average",
    "C42_no_axis",
    "C42_dtype",
    "C42_training_channels",
    "C42_fresh",
    "C42_uninitialised_inference_refuted"
   ],
   "note": "Proved over exact rationals; also exponentially weighted closed form over all histories. Side findings: training outside the named axis, or with another dtype, raises after consuming the state (C42_no_axis, C42_dtype); inference before training uses jnp.empty memory (refuted theorem)."
  },
  {
   "property": "C43",
   "status": "proved",
   "theorems": [
    "C43_stateful",
    "C43_stateless",
    "C43_keys",
    "C43_concat",
    "C43_indexing",
    "C43_slices",
    "C43_concat_key_refuted",
    "C43_lost_state"
   ],
   "note": "Concatenation equals composition when no key is passed; C43_concat_key_refuted: with a key the split keys differ."
  },
  {
   "property": "C44",
   "status": "proved",
   "theorems": [
    "C44_append_only",
    "C44_register",
    "C44_index",
    "C44_call",
    "C44_call_exact",
    "C44_transformed",
    "C44_batch_broadcast",
    "C44_batch_conflates_refuted",
    "C44_equal_static_refuted"
   ],
   "note": "Proved for arbitrary registration histories. Functions whose static parts are == share one entry, so with 1 == True a function can run with another's static leaves (C44_equal_static_refuted); batching conflates two different indices (C44_batch_conflates_refuted, documented in the source)."
  },
  {
   "property": "C45",
   "status": "proved",
   "theorems": [
    "C45_bind",
    "C45_traced",
    "C45_rule_args",
    "C45_twice",
    "C45_jvp",
    "C45_transpose",
    "C45_transpose_abstract_argument_refuted",
    "C45_combine_leftover"
   ],
   "note": "C45_bind/traced/rule_args/jvp/transpose: rules see the caller's arguments, callers see the rules' results. Side condition of C45_transpose is needed (C45_transpose_abstract_argument_refuted: a ShapedArray among static arguments breaks transposition); _combine does not notice a left-over None (C45_combine_leftover)."
  },
  {
   "property": "C46",
   "status": "proved",
   "theorems": [
    "C46_preserves",
    "C46_complete",
    "C46_evaluates",
    "C46_constvars_kept"
   ],
   "note": "For rules that agree with their primitives and primitives that see sub-jaxprs extensionally. C46_constvars_kept: open jaxprs with constvars are not finalised."
  },
  {
   "property": "C47",
   "status": "proved",
   "theorems": [
    "C47_raises",
    "C47_num_traces",
    "C47_bad_call_counts"
   ],
   "note": "Calls are counted before their arguments are bound: a call with wrong arguments uses up a trace (C47_bad_call_counts)."
  },
  {
   "property": "C48",
   "status": "partial",
   "theorems": [
    "C48_owner",
    "C48_names",
    "C48_memo",
    "C48_unhashable",
    "C48_transparent",
    "C48_delete",
    "C48_delete_wrapped_refuted",
    "C48_nonfunctions_share_refuted",
    "C48_equal_keys_refuted"
   ],
   "note": "The memo-table law is proved for all histories. Refuted: delete() of a functools.wraps-decorated function removes the wrapped function's entry instead (C48_delete_wrapped_refuted); non-functions share one undeletable table (C48_nonfunctions_share_refuted); keys equal under == share an entry (C48_equal_keys_refuted)."
  },
  {
   "property": "C49",
   "status": "proved",
   "theorems": [
    "C49_scan_trick",
    "C49_order"
   ],
   "note": ""
  },
  {
   "property": "C50",
   "status": "partial",
   "theorems": [
    "C50_store_identity",
    "C50_last_partial",
    "C50_fails",
    "C50_two_entries_refuted"
   ],
   "note": "Proved when only the last stored pytree contains arrays (in particular for one entry). C50_fails/C50_two_entries_refuted: new_leaves is never reset between entries, so with two entries containing arrays inspect_dce raises ValueError after the first."
  },
  {
   "property": "C51",
   "status": "proved",
   "theorems": [
    "C51_leafwise",
    "C51_scalar",
    "C51_other",
    "C51_unary",
    "C51_at",
    "C51_is_leaf_refuted",
    "C51_below_leaf_refuted"
   ],
   "note": "Mismatched structures or is_leaf raise; but is_leaf functions are only compared by bytecode (C51_is_leaf_refuted) and structures are compared below is_leaf leaves (C51_below_leaf_refuted)."
  },
  {
   "property": "C52",
   "status": "proved",
   "theorems": [
    "C52_index",
    "C52_distinct"
   ],
   "note": "For fewer than 2^32 calls (the index is converted to uint32)."
  },
  {
   "property": "C53",
   "status": "proved",
   "theorems": [
    "C53_layers",
    "C53_call",
    "C53_linear",
    "C53_refused"
   ],
   "note": ""
  },
  {
   "property": "C54",
   "status": "proved",
   "theorems": [
    "C54_call",
    "C54_self_refuted",
    "C54_nest"
   ],
   "note": "A keyword called self is always rejected by Partial.__call__ (C54_self_refuted)."
  },
  {
   "property": "C55",
   "status": "proved",
   "theorems": [
    "C55_value_and_grad",
    "C55_no_argument",
    "C55_grad",
    "C55_jvp",
    "C55_jvp_errors",
    "C55_vjp",
    "C55_jacobian",
    "C55_hessian"
   ],
   "note": "Gradients, JVPs, VJPs, Jacobians and Hessians, for every engine that returns one gradient per input leaf and the function's own value; the differentiated function is exactly the user's function of the inexact-array leaves. filter_jvp is characterised completely, including its errors (C55_jvp, C55_jvp_errors)."
  },
  {
   "property": "C56",
   "status": "partial",
   "theorems": [
    "C56_assertion",
    "C56_perturb",
    "C56_perturb_result",
    "C56_perturb_terminates_refuted",
    "C56_sound",
    "C56_symbolic_zeros",
    "C56_pulled_perturbed"
   ],
   "note": "Proved for every body whose returned buffers are updates of the buffers passed in (all other leaves pass through select_if_vmap, which makes the analysis inflationary). Without that the analysis need not terminate: C56_perturb_terminates_refuted (a body returning one buffer in place of two). Whenever it terminates the result is right (C56_perturb_result), and tangents outside it are zero at every iteration (C56_sound)."
  },
  {
   "property": "C57",
   "status": "proved",
   "theorems": [
    "C57_update_wrapper",
    "C57_needs_wrapped"
   ],
   "note": ""
  },
  {
   "property": "C58",
   "status": "proved",
   "theorems": [
    "C58_static",
    "C58_injective"
   ],
   "note": ""
  },
  {
   "property": "C59",
   "status": "partial",
   "theorems": [
    "C59_transpose",
    "C59_transpose_circular",
    "C59_groups_refuted"
   ],
   "note": "Proved without groups, for zero and circular padding, over any commutative semiring. With two or more groups the recipe's weights have the wrong shape and the call always fails (C59_groups_refuted)."
  },
  {
   "property": "C60",
   "status": "partial",
   "theorems": [
    "C60_errors",
    "C60_transpose_errors",
    "C60_subclasses_partial",
    "C60_dtype",
    "C60_dtype_refuted",
    "C60_groups_conv",
    "C60_groups_refuted",
    "C60_names",
    "C60_conv_arguments",
    "C60_convt_arguments",
    "C60_bad_padding"
   ],
   "note": "Refuted: ConvTranspose3d drops dtype; ConvTranspose does not check that groups divides in_channels."
  },
  {
   "property": "C61",
   "status": "proved",
   "theorems": [
    "C61_save_path",
    "C61_load_path",
    "C61_other"
   ],
   "note": ""
  },
  {
   "property": "C62",
   "status": "proved",
   "theorems": [
    "C62_transparent",
    "C62_bind",
    "C62_traced_once",
    "C62_static_equality_refuted",
    "C62_bind_errors",
    "C62_unbound",
    "C62_traced_again"
   ],
   "note": "Needs equality of static leaves to be exact and the function not to observe the order of **kwargs; C62_static_equality_refuted shows that with Python's == (1 == True) a trace for another static value is used."
  },
  {
   "property": "C63",
   "status": "proved",
   "theorems": [
    "C63_compiled",
    "C63_static_ignored_refuted",
    "C63_refused"
   ],
   "note": "Proved for calls whose static parts equal those given to lower; C63_static_ignored_refuted: other static arguments are silently ignored."
  },
  {
   "property": "C64",
   "status": "proved",
   "theorems": [
    "C64_relative"
   ],
   "note": ""
  },
  {
   "property": "C65",
   "status": "proved",
   "theorems": [
    "C65_call",
    "C65_rule",
    "C65_keyword_tangent",
    "C65_structure",
    "C65_legacy"
   ],
   "note": ""
  },
  {
   "property": "C66",
   "status": "proved",
   "theorems": [
    "C66_defined",
    "C66_call",
    "C66_last",
    "C66_args_perturbed",
    "C66_rules",
    "C66_legacy"
   ],
   "note": ""
  },
  {
   "property": "C67",
   "status": "proved",
   "theorems": [
    "C67_make_jaxpr",
    "C67_call",
    "C67_trivial",
    "C67_refused",
    "C67_in_struct",
    "C67_out_struct",
    "C67_equal_numbers_refuted",
    "C67_weak_type_refuted"
   ],
   "note": "Tracing is a parameter satisfying a soundness law (C67_ex_tracing: an instance). C67_equal_numbers_refuted, C67_weak_type_refuted: outside the stated conditions an accepted call may differ from the function."
  },
  {
   "property": "C68",
   "status": "proved",
   "theorems": [
    "C68_eval_shape",
    "C68_struct_output",
    "C68_checkpoint",
    "C68_cached",
    "C68_cached_equal_numbers_refuted",
    "C68_cached_weak_type_refuted",
    "C68_eval_full",
    "C68_eval_full_refused"
   ],
   "note": "Tracing as in C67. C68_cached_equal_numbers_refuted, C68_cached_weak_type_refuted: without the provisos the cached version differs."
  },
  {
   "property": "C69",
   "status": "proved",
   "theorems": [
    "C69_made",
    "C69_no_heads",
    "C69_keys",
    "C69_formula",
    "C69_process_heads",
    "C69_masked_irrelevant",
    "C69_lengths",
    "C69_widths",
    "C69_no_heads_call",
    "C69_mask_shape",
    "C69_weights_sum",
    "C69_fully_masked",
    "C69_permutation",
    "C69_fully_masked_refuted"
   ],
   "note": "C69_formula, C69_process_heads, C69_masked_irrelevant, C69_permutation, C69_made: the claims; C69_weights_sum: the weights sum to one. C69_fully_masked and C69_fully_masked_refuted: without a visible position the masked ones are averaged."
  },
  {
   "property": "C70",
   "status": "proved",
   "theorems": [
    "C70_layer_norm",
    "C70_rms_norm",
    "C70_init",
    "C70_mean_variance",
    "C70_shift",
    "C70_rms_of_centred",
    "C70_scale",
    "C70_bounded"
   ],
   "note": "Over the real numbers (standard library axioms of Reals). C70_layer_norm, C70_rms_norm: the formulas and refusals; C70_mean_variance, C70_shift, C70_scale, C70_bounded, C70_rms_of_centred: consequences."
  },
  {
   "property": "C71",
   "status": "partial",
   "theorems": [
    "C71_group_norm",
    "C71_one_entry",
    "C71_refuses",
    "C71_init",
    "C71_init_errors",
    "C71_one_group",
    "C71_channels_refuted",
    "C71_channels_partial",
    "C71_channels_error"
   ],
   "note": "The formula, the refusals and the constructor are characterised (C71_group_norm, C71_refuses, C71_init, C71_one_group). Refuted: a call need not refuse another number of channels than declared (C71_channels_refuted); with parameters and more than one declared channel it does (C71_channels_partial)."
  },
  {
   "property": "C72",
   "status": "proved",
   "theorems": [
    "C72_call",
    "C72_init",
    "C72_axis",
    "C72_zero_slice",
    "C72_norm",
    "C72_direction",
    "C72_init_refuted"
   ],
   "note": "Over the real numbers. The proviso of the last sentence is needed: C72_init_refuted, C72_zero_slice."
  },
  {
   "property": "C73",
   "status": "proved",
   "theorems": [
    "C73_call",
    "C73_init",
    "C73_unit",
    "C73_lower_bound",
    "C73_norm_at_least_one",
    "C73_monotone",
    "C73_rank_one"
   ],
   "note": "Over the real numbers. C73_call: values and state; C73_unit, C73_lower_bound, C73_norm_at_least_one, C73_monotone, C73_rank_one: what is approximated. If the divisor is zero (a zero weight) the output is NaN (second part of C73_call)."
  },
  {
   "property": "C74",
   "status": "proved",
   "theorems": [
    "C74_gru_call",
    "C74_gru_refused",
    "C74_gru_bounded",
    "C74_lstm_call",
    "C74_lstm_refused",
    "C74_lstm_one_cell",
    "C74_lstm_bounded",
    "C74_lstm_sizes_refuted",
    "C74_gru_init",
    "C74_lstm_init",
    "C74_no_hidden_units",
    "C74_missing_bias"
   ],
   "note": "Over the real numbers. C74_lstm_sizes_refuted: an LSTM cell with one hidden unit does not refuse a wrong cell size; C74_lstm_one_cell: a cell vector of length one is stretched."
  },
  {
   "property": "C75",
   "status": "proved",
   "theorems": [
    "C75_given",
    "C75_given_refused",
    "C75_drawn",
    "C75_sizes",
    "C75_lookup",
    "C75_not_scalar"
   ],
   "note": "The library's own indexing is assumed to return rows for integers in range (indexes_rows); indices out of range and boolean or floating scalars are left to it."
  },
  {
   "property": "C76",
   "status": "proved",
   "theorems": [
    "C76_call",
    "C76_refused",
    "C76_shape",
    "C76_number",
    "C76_shape_refuted"
   ],
   "note": "Over the real numbers. C76_shape_refuted: the documentation's claim that the input's shape is kept fails for larger slopes; C76_shape says exactly when it holds."
  },
  {
   "property": "C77",
   "status": "proved",
   "theorems": [
    "C77_batch",
    "C77_batch_select",
    "C77_select_jvp",
    "C77_select_transpose",
    "C77_set_jvp",
    "C77_set_transpose",
    "C77_backward_exact",
    "C77_written_twice_refuted",
    "C77_initial_refuted"
   ],
   "note": "C77_written_twice_refuted and C77_initial_refuted: both premises are needed; the initial contents get a wrong cotangent at overwritten locations."
  },
  {
   "property": "C78",
   "status": "proved",
   "theorems": [
    "C78_write",
    "C78_nested",
    "C78_outside",
    "C78_outside_refuted"
   ],
   "note": "C78_outside_refuted: buffer_at_set on a plain array drops the keyword arguments when writing, so that an index out of range with mode='clip' writes inside of a loop only."
  },
  {
   "property": "C79",
   "status": "proved",
   "theorems": [
    "C79_batch",
    "C79_jvp",
    "C79_jvp_primal",
    "C79_transpose",
    "C79_transpose_unbatched_refuted"
   ],
   "note": "C79_transpose_unbatched_refuted: transposing with respect to an argument which is not batched while the cotangents are raises ValueError (vmap with out_axes None of a batched output) instead of summing over the batch."
  },
  {
   "property": "C80",
   "status": "proved",
   "theorems": [
    "C80_any",
    "C80_breakpoint",
    "C80_all",
    "C80_max",
    "C80_refuses",
    "C80_constant",
    "C80_no_lanes",
    "C80_outer_refuted",
    "C80_nan_refuted",
    "C80_nontraceable",
    "C80_forward",
    "C80_backward"
   ],
   "note": "C80_outer_refuted: values that vary across an outer level are accepted by allow_constant_across_batch and stay batched. C80_nan_refuted: equal NaNs are refused."
  },
  {
   "property": "C81",
   "status": "proved",
   "theorems": [
    "C81_context",
    "C81_terminates",
    "C81_result",
    "C81_equal",
    "C81_nonlocal_refuted",
    "C81_isinstance_refuted",
    "C81_recursive_refuted",
    "C81_defaults_refuted",
    "C81_conditional",
    "C81_assign",
    "C81_empty_cell"
   ],
   "note": "C81_nonlocal_refuted, C81_isinstance_refuted, C81_recursive_refuted (functions referring to themselves cannot be converted) and C81_defaults_refuted (functions differing in defaults only compare equal) show that the premises are needed."
  },
  {
   "property": "C82",
   "status": "proved",
   "theorems": [
    "C82_arguments",
    "C82_exception",
    "C82_transparent",
    "C82_exact",
    "C82_static_mismatch",
    "C82_shape_mismatch",
    "C82_faithful",
    "C82_places_refuted"
   ],
   "note": "C82_places_refuted shows that the condition on None in C82_faithful is needed"
  },
  {
   "property": "C83",
   "status": "proved",
   "theorems": [
    "C83_exact",
    "C83_kwargs",
    "C83_devices",
    "C83_agrees",
    "C83_same_as_vmap_refuted"
   ],
   "note": ""
  },
  {
   "property": "C84",
   "status": "proved",
   "theorems": [
    "C84_next",
    "C84_prev",
    "C84_ends",
    "C84_mirror",
    "C84_inverse",
    "C84_monotone",
    "C84_denormals_away_from_zero",
    "C84_denormals_refuted",
    "C84_tangents"
   ],
   "note": "Stated for hardware that compares denormals as zero. C84_denormals_away_from_zero and C84_denormals_refuted say what happens otherwise: right except at zero, where all denormals are skipped and monotonicity fails."
  },
  {
   "property": "C85",
   "status": "proved",
   "theorems": [
    "C85_value",
    "C85_gradient",
    "C85_no_cotangent_refuted"
   ],
   "note": "C85_no_cotangent_refuted: with terminate set and only symbolic zero cotangents, jnp.stack([]) raises ValueError although nothing is NaN."
  },
  {
   "property": "C86",
   "status": "partial",
   "theorems": [
    "C86_identity",
    "C86_announced",
    "C86_announced_tree",
    "C86_intermediates",
    "C86_reverse_partial",
    "C86_reverse_refuted",
    "C86_transposed"
   ],
   "note": "Reverse mode is refuted for two or more differentiated arrays (C86_reverse_refuted); C86_reverse_partial covers the others."
  },
  {
   "property": "C87",
   "status": "partial",
   "theorems": [
    "C87_batch_exact",
    "C87_batch_partial",
    "C87_jvp",
    "C87_transpose",
    "C87_abstract",
    "C87_callback",
    "C87_callback_flags",
    "C87_callback_count",
    "C87_batch_refuted"
   ],
   "note": "The batching rule is refuted for batch axes from the third on (C87_batch_refuted; C87_batch_exact says what is computed; C87_batch_partial covers the first two axes)."
  },
  {
   "property": "C88",
   "status": "proved",
   "theorems": [
    "C88_window",
    "C88_refused",
    "C88_avg",
    "C88_avg_mean",
    "C88_max",
    "C88_window_places",
    "C88_adaptive_avg",
    "C88_adaptive_max",
    "C88_blocks",
    "C88_window_nonempty",
    "C88_window_in_padding"
   ],
   "note": ""
  },
  {
   "property": "C89",
   "status": "proved",
   "theorems": [
    "C89_selected",
    "C89_wrap",
    "C89_body",
    "C89_refuses",
    "C89_refines",
    "C89_loop"
   ],
   "note": ""
  },
  {
   "property": "C90",
   "status": "proved",
   "theorems": [
    "C90_errors",
    "C90_extension",
    "C90_value",
    "C90_groups",
    "C90_accepts",
    "C90_rank",
    "C90_valid",
    "C90_shift",
    "C90_same",
    "C90_same_size_refuted"
   ],
   "note": "Any operations on any type of entries; no ring laws needed. C90_same_size_refuted: the docstring's 'same size spatial dimensions as the input' for 'SAME' only holds for stride 1; C90_same has the right statement."
  },
  {
   "property": "C91",
   "status": "partial",
   "theorems": [
    "C91_summaries",
    "C91_truncated_partial",
    "C91_arrays_partial",
    "C91_structs",
    "C91_hidden",
    "C91_truncate_refuted",
    "C91_partial_fields",
    "C91_short_refuted",
    "C91_summary_differs"
   ],
   "note": "Refuted inside Partials and custom_jvp/custom_vjp functions: lines 57 and 61 call wl.pdoc without the options, so truncation and short_arrays=False have no effect there (C91_truncate_refuted, C91_short_refuted) and the summary loses the weak type (C91_summary_differs). Proved for all other nodes (C91_truncated_partial, C91_arrays_partial); the dependence on summaries only holds everywhere (C91_summaries)."
  },
  {
   "property": "C92",
   "status": "proved",
   "theorems": [
    "C92_init",
    "C92_final",
    "C92_activate",
    "C92_network",
    "C92_fresh"
   ],
   "note": "filter_vmap(lambda: activation) under the outer filter_vmap sees nothing batched; the linear layers are arbitrary functions returning arrays."
  },
  {
   "property": "C93",
   "status": "proved",
   "theorems": [
    "C93_lower_bound",
    "C93_is_schedule",
    "C93_count",
    "C93_default",
    "C93_equality_refuted"
   ],
   "note": "Proved for n < (C+1)(C+2)/2. The documented bound (less than or equal) is refuted at equality by C93_equality_refuted."
  },
  {
   "property": "C94",
   "status": "proved",
   "theorems": [
    "C94_construct",
    "C94_call",
    "C94_independent",
    "C94_linear",
    "C94_mlp",
    "C94_attention",
    "C94_recurrent",
    "C94_conv",
    "C94_normal"
   ],
   "note": ""
  },
  {
   "property": "C95",
   "status": "proved",
   "theorems": [
    "C95_array_like",
    "C95_array_like_iff",
    "C95_inexact",
    "C95_inexact_like",
    "C95_inexact_array_like",
    "C95_inexact_agree",
    "C95_libraries_refuted",
    "C95_total_refuted"
   ],
   "note": ""
  },
  {
   "property": "C96",
   "status": "proved",
   "theorems": [
    "C96_exact",
    "C96_error",
    "C96_values",
    "C96_everywhere"
   ],
   "note": ""
  },
  {
   "property": "C97",
   "status": "proved",
   "theorems": [
    "C97_getattr",
    "C97_magic",
    "C97_like_python",
    "C97_call",
    "C97_instance_call",
    "C97_keyword_self_refuted",
    "C97_pytree",
    "C97_all_refuted"
   ],
   "note": ""
  },
  {
   "property": "C98",
   "status": "proved",
   "theorems": [
    "C98_exact",
    "C98_right_message",
    "C98_value",
    "C98_filters",
    "C98_logged",
    "C98_two_errors_refuted",
    "C98_stale_refuted",
    "C98_nested_refuted"
   ],
   "note": "C98_exact is the full case analysis. The general claim 'the message reported is that of the error that ended the computation' is refuted if two errors fire in one run (C98_two_errors_refuted), if a later exception quotes an error (C98_stale_refuted: the module variables keep the old message), and for compiled functions called from callbacks (C98_nested_refuted: the outer exception is not translated)."
  },
  {
   "property": "C99",
   "status": "proved",
   "theorems": [
    "C99_creation",
    "C99_own",
    "C99_index",
    "C99_inherited",
    "C99_unknown",
    "C99_instance",
    "C99_inherited_refuted"
   ],
   "note": "The property with names of base classes is refuted (C99_inherited_refuted: IndexError or another message) and characterised exactly (C99_inherited). isinstance accepts every integer, whether or not an item has that number (C99_instance)."
  },
  {
   "property": "C100",
   "status": "proved",
   "theorems": [
    "C100_value",
    "C100_accepts",
    "C100_errors",
    "C100_rank"
   ],
   "note": ""
  },
  {
   "property": "C101",
   "status": "proved",
   "theorems": [
    "C101_suffix",
    "C101_no_name",
    "C101_full_name",
    "C101_same_file",
    "C101_parse",
    "C101_root",
    "C101_save",
    "C101_round_trip",
    "C101_undisturbed",
    "C101_open_errors",
    "C101_nameless",
    "C101_failed",
    "C101_old_contents_lost",
    "C101_in_turn"
   ],
   "note": ""
  },
  {
   "property": "C102",
   "status": "proved",
   "theorems": [
    "C102_training",
    "C102_other_leaves",
    "C102_is_array",
    "C102_stateful"
   ],
   "note": "filter_jit around the step is left out (C62). Optax is not in the repository: any list function with one update per gradient."
  },
  {
   "property": "C103",
   "status": "proved",
   "theorems": [
    "C103_frozen",
    "C103_unchanged"
   ],
   "note": "Specifications with callables may select other leaves after a step (example C103_callable_ex), so the theorem is for Booleans, as in the example."
  },
  {
   "property": "C104",
   "status": "proved",
   "theorems": [
    "C104_members",
    "C104_same_input",
    "C104_own_input"
   ],
   "note": "Sizes of the ensemble's arrays are claimed for n > 0 keys."
  },
  {
   "property": "C105",
   "status": "proved",
   "theorems": [
    "C105_resume",
    "C105_like_made",
    "C105_hyperparameters",
    "C105_fits"
   ],
   "note": "json is an arbitrary pair of functions; weak types are not distinguished."
  },
  {
   "property": "C106",
   "status": "proved",
   "theorems": [
    "C106_init",
    "C106_init_works",
    "C106_symmetric",
    "C106_resolve",
    "C106_same_leaves"
   ],
   "note": "JAX's random.split is an arbitrary function giving n keys; values of arrays are arbitrary."
  },
  {
   "property": "C107",
   "status": "proved",
   "theorems": [
    "C107_scan",
    "C107_works",
    "C107_no_arrays"
   ],
   "note": "lax.scan is outside the repository; its checks are recorded in the header of ScanLayers_Model."
  },
  {
   "property": "C108",
   "status": "proved",
   "theorems": [
    "C108_flat",
    "C108_run",
    "C108_general",
    "C108_any_step_refuted"
   ],
   "note": "filter_jit is left out of the loops (C62)."
  },
  {
   "property": "C109",
   "status": "proved",
   "theorems": [
    "C109_exact",
    "C109_function",
    "C109_linear",
    "C109_logarithmic",
    "C109_bound",
    "C109_quadratic",
    "C109_at_least",
    "C109_asymptotic_refuted"
   ],
   "note": "Counts iterations of the backward while loop; each is one evaluation of the body or one vjp."
  },
  {
   "property": "C110",
   "status": "proved",
   "theorems": [
    "C110_result",
    "C110_forwards",
    "C110_once",
    "C110_reverse",
    "C110_memory",
    "C110_loop"
   ],
   "note": ""
  },
  {
   "property": "C111",
   "status": "proved",
   "theorems": [
    "C111_formula",
    "C111_relative",
    "C111_padding"
   ],
   "note": "Exact arithmetic: scalars form a commutative ring with Leibniz equality; the addition theorems for the cos and sin tables are hypotheses; dropout is the identity in C111_padding; exp of (finfo.min minus the row's maximum) is zero."
  },
  {
   "property": "C112",
   "status": "proved",
   "theorems": [
    "C112_pointwise",
    "C112_transpose",
    "C112_average",
    "C112_mlp_sequential",
    "C112_mlp_depth_zero",
    "C112_one_position",
    "C112_adaptive_avg",
    "C112_adaptive_max",
    "C112_pool_identity"
   ],
   "note": "Exact arithmetic (averages over the reals). Elementwise activations only in C112_mlp_sequential. C112_one_position assumes dropout inactive and exp(a)/exp(a) = 1."
  },
  {
   "property": "C113",
   "status": "proved",
   "theorems": [
    "C113_transparent",
    "C113_trace_nan",
    "C113_error_if",
    "C113_nan_modes_differ"
   ],
   "note": "Forward mode; reverse mode follows by transposition in JAX, which is not modelled here."
  },
  {
   "property": "C114",
   "status": "proved",
   "theorems": [
    "C114_saved",
    "C114_round_trip",
    "C114_order",
    "C114_used_up",
    "C114_substate_order_refuted"
   ],
   "note": "dtypes that jnp.save stores faithfully (C20); update may write values of other shapes (C17_foreign_update_refuted), which the premise typed excludes."
  },
  {
   "property": "C115",
   "status": "proved",
   "theorems": [
    "C115_gru",
    "C115_lstm",
    "C115_units",
    "C115_heads",
    "C115_weights_alone_refuted"
   ],
   "note": "C115_heads is for calls without dropout and without process_heads; sums are exact (reordering a floating-point sum may round differently)."
  },
  {
   "property": "C116",
   "status": "proved",
   "theorems": [
    "C116_promotion",
    "C116_kept",
    "C116_kept_complex",
    "C116_strict_complex_refuted",
    "C116_linear",
    "C116_mlp",
    "C116_gru",
    "C116_lstm",
    "C116_scannable",
    "C116_attention",
    "C116_conv",
    "C116_norms",
    "C116_norms_strict",
    "C116_rope_strict",
    "C116_batch_norm",
    "C116_dropout",
    "C116_dropout_integers_refuted",
    "C116_prelu",
    "C116_spectral",
    "C116_spectral_inference",
    "C116_conv_weak",
    "C116_spectral_state",
    "C116_default"
   ],
   "note": "The graph is JAX's documented one. In strict mode complex dtypes are not kept by LayerNorm and masked attention (C116_strict_complex_refuted), and Dropout of integers depends on the mode (C116_dropout_integers_refuted); both are outside the property's statement."
  },
  {
   "property": "C117",
   "status": "proved",
   "theorems": [
    "C117_moments",
    "C117_first",
    "C117_repeated",
    "C117_order",
    "C117_inference",
    "C117_later_refuted",
    "C117_training_examples_refuted"
   ],
   "note": "Exact arithmetic: reordering a floating-point sum may round differently."
  },
  {
   "property": "C118",
   "status": "proved",
   "theorems": [
    "C118_call",
    "C118_closed",
    "C118_run",
    "C118_run_closed",
    "C118_made",
    "C118_lanes",
    "C118_tree",
    "C118_not_a_state",
    "C118_closed_refuted",
    "C118_number_refuted"
   ],
   "note": "The encoding of keys and markers as kinds is arbitrary with decoding (an instance is given). The number of lanes in C118_run is positive."
  },
  {
   "property": "C119",
   "status": "proved",
   "theorems": [
    "C119_gradient",
    "C119_shared",
    "C119_unique",
    "C119_sum",
    "C119_step",
    "C119_copies_refuted"
   ],
   "note": "Derivatives are those computed by forward mode at fixed primals (a linear function of the tangents); that jax.grad computes the transpose of it is part of JAX."
  },
  {
   "property": "C120",
   "status": "proved",
   "theorems": [
    "C120_transpose",
    "C120_grad",
    "C120_directional",
    "C120_jacobians"
   ],
   "note": "Laws of JAX assumed in the statements: vjp transposes jvp (transposes), value_and_grad is vjp at one (grad_is_pull), tracing computes the program (runs); examples exhibit engines satisfying them."
  },
  {
   "property": "C121",
   "status": "proved",
   "theorems": [
    "C121_gradient",
    "C121_stopped",
    "C121_symmetric",
    "C121_symmetric_step"
   ],
   "note": "JAX's differentiation is assumed in the statements: the derivative of the loss is given, with gradient g (is_gradient); examples exhibit such losses."
  },
  {
   "property": "C122",
   "status": "proved",
   "theorems": [
    "C122_batches",
    "C122_epoch",
    "C122_diffusion",
    "C122_diffusion_epoch_refuted",
    "C122_diffusion_hangs_refuted",
    "C122_paired",
    "C122_refused",
    "C122_hangs_refuted",
    "C122_eval",
    "C122_eval_hangs_refuted",
    "C122_mean",
    "C122_mean_refuted"
   ],
   "note": "Random permutations are an assumption (any permutation per epoch). The refuted theorems are the boundary cases named in the statement."
  },
  {
   "property": "C123",
   "status": "proved",
   "theorems": [
    "C123_apply",
    "C123_tree_map",
    "C123_train"
   ],
   "note": "Derivatives and optimiser are arbitrary up to the laws of C102 (grad_law, opt_law, add_law)."
  },
  {
   "property": "C124",
   "status": "proved",
   "theorems": [
    "C124_exact",
    "C124_plain",
    "C124_calls",
    "C124_direct_fails",
    "C124_direct",
    "C124_static_refuted"
   ],
   "note": "The refuted theorem is the loss of static changes named in the statement. Tracing once for all steps is not modelled: steps are functions of values."
  },
  {
   "property": "C125",
   "status": "proved",
   "theorems": [
    "C125_make",
    "C125_make_32",
    "C125_call",
    "C125_odd",
    "C125_no_key",
    "C125_make_keys",
    "C125_call_keys",
    "C125_attention"
   ],
   "note": "Shapes only; values are not modelled. That shapes need divisibility by 2**(levels - 1) is not checked by the example's code."
  },
  {
   "property": "C126",
   "status": "proved",
   "theorems": [
    "C126_padding",
    "C126_irrelevant",
    "C126_first_padding_refuted",
    "C126_layer"
   ],
   "note": "Dropout off: with dropout, random bits depend on the shapes. Numbers are assumed to form an associative addition with left unit (exact arithmetic), as in C69."
  },
  {
   "property": "C127",
   "status": "proved",
   "theorems": [
    "C127_patches",
    "C127_block",
    "C127_train_keys",
    "C127_train_batches",
    "C127_test_batches",
    "C127_test_once_refuted",
    "C127_accuracy",
    "C127_call_keys",
    "C127_inference",
    "C127_permutation",
    "C127_made",
    "C127_same_blocks",
    "C127_succeeds"
   ],
   "note": "Dropout is an arbitrary function of key and array that keeps shapes. Numbers: exact arithmetic as in C69. The name differs from _refuted where a claim one might expect (blocks start different) is replaced by the true one (C127_same_blocks)."
  },
  {
   "property": "C128",
   "status": "proved",
   "theorems": [
    "C128_generator",
    "C128_discriminator",
    "C128_loss_pairs",
    "C128_loss",
    "C128_loss_mixed_refuted",
    "C128_loss_empty",
    "C128_loss_shapes",
    "C128_training"
   ],
   "note": "The step functions are modelled symbolically: which parameters, batch, state and key enter which prediction. The numbers are covered by the properties of the layers."
  },
  {
   "property": "C129",
   "status": "proved",
   "theorems": [
    "C129_training",
    "C129_step",
    "C129_tied_refuted",
    "C129_original",
    "C129_evaluation",
    "C129_evaluation_all_refuted",
    "C129_eval_batches"
   ],
   "note": "Buffers only, no values (these are C62, C96, C102). That XLA refuses deleted and twice donated buffers, and that results are new buffers, is assumed of JAX."
  },
  {
   "property": "C130",
   "status": "proved",
   "theorems": [
    "C130_mixer",
    "C130_variance",
    "C130_score",
    "C130_loss",
    "C130_times",
    "C130_sampling",
    "C130_keys",
    "C130_keys_partitionable_refuted",
    "C130_prints"
   ],
   "note": "Real arithmetic instead of floats. C130_keys_partitionable_refuted is about JAX with jax_threefry_partitionable, read as: the i-th key of a split does not depend on how many are asked for."
  },
  {
   "property": "C131",
   "status": "proved",
   "theorems": [
    "C131_cnn",
    "C131_no_classes",
    "C131_log_softmax",
    "C131_argmax",
    "C131_cross_entropy",
    "C131_labels",
    "C131_nan",
    "C131_accuracy",
    "C131_evaluate",
    "C131_evaluate_mnist_refuted",
    "C131_spirals",
    "C131_rnn",
    "C131_rnn_value",
    "C131_bce"
   ],
   "note": "Real arithmetic instead of floats. The theorems that use ln or the monotony of exp depend on Classical_Prop.classic, as these do in the standard library."
  },
  {
   "property": "C132",
   "status": "proved",
   "theorems": [
    "C132_transparent",
    "C132_bounded",
    "C132_clear",
    "C132_hit",
    "C132_fresh",
    "C132_unlimited",
    "C132_same_object",
    "C132_new_object"
   ],
   "note": "lru_cache is a model of the documented behaviour of Python."
  },
  {
   "property": "C133",
   "status": "proved",
   "theorems": [
    "C133_stage",
    "C133_lazy",
    "C133_stages",
    "C133_parentheses",
    "C133_jit",
    "C133_grad",
    "C133_vmap",
    "C133_pmap",
    "C133_other",
    "C133_twice",
    "C133_by_name"
   ],
   "note": "Which function and options a wrapper holds; what it does with them is the subject of other properties."
  },
  {
   "property": "C134",
   "status": "proved",
   "theorems": [
    "C134_int",
    "C134_load",
    "C134_load_error",
    "C134_error_action",
    "C134_seed"
   ],
   "note": "Python's int is a model of the documented behaviour for ASCII strings."
  },
  {
   "property": "C135",
   "status": "proved",
   "theorems": [
    "C135_same_results",
    "C135_order",
    "C135_depth",
    "C135_flat",
    "C135_ignored",
    "C135_warns",
    "C135_transformed",
    "C135_container",
    "C135_same_warnings",
    "C135_lower"
   ],
   "note": "That jax.jit does not change results is part of the model; the part about lower is read off directly from the missing attribute."
  },
  {
   "property": "C136",
   "status": "proved",
   "theorems": [
    "C136_signature",
    "C136_remove",
    "C136_remove_twice",
    "C136_repr",
    "C136_str",
    "C136_equal",
    "C136_traces"
   ],
   "note": "The checks of inspect.Signature are a model of the standard library."
  }
 ]
}
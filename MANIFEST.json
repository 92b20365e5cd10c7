{
 "claims": [
  {
   "property": "C01",
   "status": "proved",
   "theorems": [
    "C01_flat_idx_coordinate_inverse",
    "C01_flat_idx_value",
    "C01_coordinate_unknown_dimension_refuted"
   ],
   "note": "Bijection proved for all fully defined shapes; on a shape with an unknown dimension the code divides by zero (refuted theorem)."
  },
  {
   "property": "C02",
   "status": "proved",
   "theorems": [
    "C02_iterate_visits_each_once",
    "C02_iterate_order"
   ],
   "note": ""
  },
  {
   "property": "C03",
   "status": "proved",
   "theorems": [
    "C03_compatibility_reflexive_symmetric",
    "C03_compatibility_same_rank",
    "C03_compatibility_transitive_refuted",
    "C03_compatibility_defined_transitive_refuted"
   ],
   "note": "Reflexive and symmetric; transitivity, not claimed, is shown false."
  },
  {
   "property": "C04",
   "status": "proved",
   "theorems": [
    "C04_compatible_defined_shapes"
   ],
   "note": ""
  },
  {
   "property": "C05",
   "status": "proved",
   "theorems": [
    "C05_merge_value",
    "C05_merge_laws",
    "C05_merge_incompatible_refuted"
   ],
   "note": "Commutativity needs compatibility: refuted theorem shows the failure without it."
  },
  {
   "property": "C06",
   "status": "proved",
   "theorems": [
    "C06_trim",
    "C06_with_rank",
    "C06_concatenate",
    "C06_with_rank_truncates_refuted"
   ],
   "note": "with_rank below the rank drops dimensions (refuted theorem)."
  },
  {
   "property": "C07",
   "status": "proved",
   "theorems": [
    "C07_element_count_exact_below_2_64",
    "C07_element_count_overflow_refuted",
    "C07_allocate_bytes_exact"
   ],
   "note": "64-bit wrap modelled explicitly; overflow witness."
  },
  {
   "property": "C08",
   "status": "proved",
   "theorems": [
    "C08_fit_node",
    "C08_fit_toshape",
    "C08_fit_same_shape",
    "C08_fit_undefined_aborts",
    "C08_fit_operator"
   ],
   "note": ""
  },
  {
   "property": "C09",
   "status": "proved",
   "theorems": [
    "C09_buffer_matches_shape",
    "C09_n_elems",
    "C09_alloc_compatible_with_allowed_refuted",
    "C09_alloc_compatible_when_gentle"
   ],
   "note": "Unrestricted compatibility with the allowed shape is refuted."
  },
  {
   "property": "C10",
   "status": "proved",
   "theorems": [
    "C10_ownership_no_leak",
    "C10_no_double_free_no_use_after_free"
   ],
   "note": "One allocator, allocation never fails (simplification)."
  },
  {
   "property": "C11",
   "status": "proved",
   "theorems": [
    "C11_set_shape_keeps_data",
    "C11_set_shape_partial_dims",
    "C11_partial_shape_ignored_refuted",
    "C11_copy_from_fits_data"
   ],
   "note": "Silently ignored request shown by a refuted theorem."
  },
  {
   "property": "C12",
   "status": "proved",
   "theorems": [
    "C12_get_agrees_with_expose",
    "C12_get_throws_past_the_end",
    "C12_get_throws_last_dimension",
    "C12_out_of_bound_aliases_refuted",
    "C12_get_unallocated_throws"
   ],
   "note": "Doc claim 'out-of-bound coordinate throws' refuted; exact throwing condition proved."
  },
  {
   "property": "C13",
   "status": "proved",
   "theorems": [
    "C13_guess_shape_sound_complete",
    "C13_guess_no_data_refuted",
    "C13_compatible_data_iff_guess",
    "C13_compatible_data_guess_differ_refuted",
    "C13_loosely_guess_holds_data",
    "C13_loosely_compatible",
    "C13_loosely_guess_undefined_refuted"
   ],
   "note": "Three corner cases refuted."
  },
  {
   "property": "C14",
   "status": "proved",
   "theorems": [
    "C14_serialize_round_trip",
    "C14_serialize_iff_allocated",
    "C14_rank_mismatch_refuted",
    "C14_ndebug_load_refuted"
   ],
   "note": "Rank mismatch and NDEBUG cases refuted."
  },
  {
   "property": "C15",
   "status": "proved",
   "theorems": [
    "C15_malformed_proto",
    "C15_rank_mismatch_aborts",
    "C15_overlong_data_overflows_refuted",
    "C15_rejected_proto_changes_shape_refuted"
   ],
   "note": "Safety for overlong data and atomicity of the allowed shape are refuted; C15_malformed_proto covers the rest."
  },
  {
   "property": "C16",
   "status": "proved",
   "theorems": [
    "C16_transpose_elements",
    "C16_transpose_twice",
    "C16_transpose_new_axis",
    "C16_transpose_new_axis_scrambles_refuted",
    "C16_transpose_beyond_rank_unwritten_refuted"
   ],
   "note": "Two refuted theorems for axes beyond the rank."
  },
  {
   "property": "C17",
   "status": "proved",
   "theorems": [
    "C17_extend_elements",
    "C17_extend_trivial_multipliers",
    "C17_extend_new_axis_refuted"
   ],
   "note": "Index beyond the rank refuted."
  },
  {
   "property": "C18",
   "status": "proved",
   "theorems": [
    "C18_reduced_shape",
    "C18_compress_folds_axis",
    "C18_fibres_partition",
    "C18_compress_all",
    "C18_compress_beyond_rank_copies"
   ],
   "note": ""
  },
  {
   "property": "C19",
   "status": "proved",
   "theorems": [
    "C19_arg_max_axis",
    "C19_arg_max_bad_axis_throws",
    "C19_arg_max_all",
    "C19_arg_max_all_shape_refuted"
   ],
   "note": "Shape without axis refuted."
  },
  {
   "property": "C20",
   "status": "proved",
   "theorems": [
    "C20_flip_elements",
    "C20_flip_twice",
    "C20_flip_bad_axis_refuted"
   ],
   "note": "Rejection of a bad axis refuted."
  },
  {
   "property": "C21",
   "status": "proved",
   "theorems": [
    "C21_matmul_shape",
    "C21_matmul_shape_low_rank",
    "C21_matmul_elements",
    "C21_matmul_transposed",
    "C21_matmul_batch_overrun_refuted",
    "C21_matmul_batch_dropped_refuted"
   ],
   "note": "cubic path for any element type; shape function; transposed arguments through the transpose nodes; two findings as _refuted theorems"
  },
  {
   "property": "C22",
   "status": "proved",
   "theorems": [
    "C22_padding",
    "C22_strassen_product",
    "C22_strassen_matmul"
   ],
   "note": "strassen verified on block memory with arbitrary uninitialised scratch content, any ring, any threshold; whole forward pass equal to the cubic one"
  },
  {
   "property": "C23",
   "status": "proved",
   "theorems": [
    "C23_unary_pointwise",
    "C23_binary_pointwise",
    "C23_binary_incompatible"
   ],
   "note": "Generic over the element type and function; forward_pass with and without a previous tensor."
  },
  {
   "property": "C24",
   "status": "proved",
   "theorems": [
    "C24_axial_elements",
    "C24_axial_scalar",
    "C24_axial_square_refuted",
    "C24_axial_single_big_refuted",
    "C24_axial_axis_out_of_range_refuted"
   ],
   "note": "Generic over element type and function."
  },
  {
   "property": "C25",
   "status": "proved",
   "theorems": [
    "C25_unary",
    "C25_fold_agrees",
    "C25_binary",
    "C25_binary_incompatible",
    "C25_abs_refuted",
    "C25_shape_lost_refuted",
    "C25_div_zero_refuted",
    "C25_div_by_constant_zero"
   ],
   "note": "Reuse of an existing node by label is C32. Floating point rounding is not modelled: the laws are stated as a record satisfied by the reals."
  },
  {
   "property": "C26",
   "status": "proved",
   "theorems": [
    "C26_clip_val",
    "C26_clip_norm_const",
    "C26_clip_norm_cap",
    "C26_clip_norm_squared_refuted",
    "C26_l2norm_node_refuted",
    "C26_l2norm_const_refuted",
    "C26_clip_norm_node_refuted"
   ],
   "note": "Over the reals."
  },
  {
   "property": "C27",
   "status": "proved",
   "theorems": [
    "C27_histories_run",
    "C27_links_mirror",
    "C27_construct",
    "C27_pointer_assign",
    "C27_pointer_clear",
    "C27_copy_assign",
    "C27_move_assign",
    "C27_move_construct",
    "C27_move_generator_refuted",
    "C27_copy_generator_refuted"
   ],
   "note": "Objects are modelled with their dependencies_ and audience_ containers, destruction phases and kill conditions; histories are the inductive relation `reach`. Self-destruction cascades (constants, generators, broken connectors) are followed through the real call structure (detach -> death_on_noparent -> delete -> ~iobserver -> ...). Two `_refuted` theorems give the generator findings."
  },
  {
   "property": "C28",
   "status": "proved",
   "theorems": [
    "C28_destroy",
    "C28_any_order",
    "C28_null_tail_refuted"
   ],
   "note": "The set of casualties is characterised independently by the inductive predicate `dead` (ReactSpec.v); proved equal to what the mutually recursive destructors do, by induction on the number of live objects. graph_manager::suicide and on-death dependents are not part of this model (see C29). `_refuted` theorem for the null-tail observer."
  },
  {
   "property": "C29",
   "status": "proved",
   "theorems": [
    "C29_eval_is_current",
    "C29_value_unique",
    "C29_calls_return",
    "C29_frozen_keeps",
    "C29_silent_assignment_refuted",
    "C29_clone_refuted",
    "C29_shape_of_frozen_refuted",
    "C29_merge_thaws_refuted"
   ],
   "note": "Model EvalModel.v: values are of an arbitrary type, the functions of operations arbitrary partial functions, notification order and choice among equal depths arbitrary. Destruction of nodes, generators and mutables are not part of this model."
  },
  {
   "property": "C30",
   "status": "proved",
   "theorems": [
    "C30_at_most_once",
    "C30_several_at_most_once",
    "C30_second_eval_idle",
    "C30_nothing_stale",
    "C30_unfreeze_refuted"
   ],
   "note": "The forward passes started are recorded in the model's log (elog)."
  },
  {
   "property": "C31",
   "status": "proved",
   "theorems": [
    "C31_recovers",
    "C31_eventually_returns",
    "C31_refuted"
   ],
   "note": "The wished property (reassigning the leaf suffices) is refuted by C31_refuted; the exact recovery rule is proved."
  },
  {
   "property": "C32",
   "status": "proved",
   "theorems": [
    "C32_reuse",
    "C32_reuse_exact",
    "C32_sum_product",
    "C32_double_negation",
    "C32_double_transpose",
    "C32_matmul_flags",
    "C32_second_call",
    "C32_as_constant_never_reused",
    "C32_printing_refuted",
    "C32_conditional_side_refuted",
    "C32_axial_order_refuted",
    "C32_sum_shape_refuted",
    "C32_set_label_refuted",
    "C32_clip_norm_refuted",
    "C32_name_refuted"
   ],
   "note": "CseModel.v models labels, audience search, reuse and the undo shortcuts for the whole set of builders; values by the forward passes of the other models. Shortcuts for constants and scalars 0 and 1 are in C25, so leaves here are non-constant. binomial_sample, shape_dep nodes and metadata are not modelled. The returned node's gradient is not part of the theorem (see C37)."
  },
  {
   "property": "C33",
   "status": "proved",
   "theorems": [
    "C33_feed_reads_back",
    "C33_feed_rejects",
    "C33_feed_tensor",
    "C33_feed_tensor_keeps_argument_refuted",
    "C33_initialize",
    "C33_initialize_without_initializer",
    "C33_initialize_shape",
    "C33_reinitialize_shape_refuted",
    "C33_updater_from_node",
    "C33_updater_from_constant",
    "C33_assign_to_uninitialized_refuted",
    "C33_other_nodes_unchanged",
    "C33_clone"
   ],
   "note": "Heap-level model of ileaf/ivariable/placeholder/variable/assign_func; histories from the empty world; `observe` is eval + get_shape + expose. Findings are `_refuted` theorems or exact side conditions of the updater theorems. Updater inputs that are operation nodes are represented by the tensor they evaluate to."
  },
  {
   "property": "C34",
   "status": "proved",
   "theorems": [
    "C34_constant_defined_shape",
    "C34_constant_partial_shape",
    "C34_constant_undefined_shape_refuted",
    "C34_scalar_constant",
    "C34_constants_never_change",
    "C34_equals_scalar",
    "C34_const_axis",
    "C34_const_axis_bad_dimension_refuted"
   ],
   "note": "constant.ipp constructors and const_axis on the tensor heap; two `_refuted` theorems for the undefined-behaviour corners."
  },
  {
   "property": "C35",
   "status": "proved",
   "theorems": [
    "C35_keys_distinct",
    "C35_write",
    "C35_read",
    "C35_read_no_file",
    "C35_round_trip",
    "C35_interrupted_save_refuted",
    "C35_rank_change_refuted",
    "C35_load_ignores_target_refuted",
    "C35_model_round_trip",
    "C35_model_initialize_incomplete_file",
    "C35_dq_round_trip"
   ],
   "note": "The file is a map from keys to tensor messages (protobuf encoding trusted). Findings stated as _refuted theorems. ShutdownProtobufLibrary being called after every save/load is not modelled."
  },
  {
   "property": "C36",
   "status": "proved",
   "theorems": [
    "C36_value",
    "C36_gradient",
    "C36_local",
    "C36_absent",
    "C36_builders",
    "C36_plus_refuted",
    "C36_clip_refuted",
    "C36_derive_node_refuted",
    "C36_round_refuted"
   ],
   "note": "Real numbers; derivative in the sense of the standard library (derivable_pt_lim). Nodes are trees; reuse of existing nodes is C32. csc is covered where also cos is non-zero, because its gradient divides by tan. Refuted parts: C36_plus_refuted, C36_clip_refuted, C36_round_refuted, C36_derive_node_refuted."
  },
  {
   "property": "C37",
   "status": "proved",
   "theorems": [
    "C37_matmul_left",
    "C37_matmul_right",
    "C37_training_gradient",
    "C37_reduce_sum",
    "C37_sum_elementwise",
    "C37_broadcast_refuted",
    "C37_reduce_max_refuted",
    "C37_bias_sum_refuted",
    "C37_softmax_refuted",
    "C37_skip_refuted",
    "C37_bias_product_refuted",
    "C37_explicit_transpose_refuted"
   ],
   "note": "Real numbers. C37_training_gradient is the main theorem (Jacobian lists, matmul backward, bias sums, activations, squared error). Refuted parts: C37_broadcast_refuted, C37_reduce_max_refuted, C37_bias_sum_refuted, C37_softmax_refuted, C37_skip_refuted, C37_bias_product_refuted, C37_explicit_transpose_refuted. Gradients of extend, flip, reductions along an axis and reduce_mean are not modelled; the clip_val one is C36_clip_refuted."
  },
  {
   "property": "C38",
   "status": "proved",
   "theorems": [
    "C38_vgb",
    "C38_rmsprop",
    "C38_rmsprop_refuted",
    "C38_simultaneous_refuted",
    "C38_targets",
    "C38_ignore",
    "C38_unimplemented_refuted"
   ],
   "note": "Tensor arithmetic is abstract (arith), instantiated with real numbers in the examples and refutations; the gradient node is given. Refuted parts: C38_rmsprop_refuted, C38_simultaneous_refuted, C38_unimplemented_refuted."
  },
  {
   "property": "C39",
   "status": "proved",
   "theorems": [
    "C39_sigmoid",
    "C39_sigmoid_symmetry",
    "C39_tanh",
    "C39_softmax",
    "C39_softmax_batch_refuted",
    "C39_softmax_shift"
   ],
   "note": "Reals, no floating-point overflow. Composed from the modelled builders of elementary.ipp and reduce_sum, including their constant folding. Refuted part: C39_softmax_batch_refuted."
  },
  {
   "property": "C40",
   "status": "proved",
   "theorems": [
    "C40_currents_are_latest",
    "C40_fresh_consumer",
    "C40_current_consumer",
    "C40_replaced_consumer",
    "C40_no_loss",
    "C40_one_consumer_never_oversleeps",
    "C40_crash_refuted",
    "C40_lost_value_refuted",
    "C40_delivered_twice_refuted",
    "C40_two_consumers_oversleep_refuted"
   ],
   "note": "Pointer-level model of the doubly linked list, umap_ and iterators; each call is one atomic step because of mutex_; the specification is in terms of the list of all added values. Memory reclamation by shared_ptr is not modelled. The four findings are `_refuted` theorems."
  },
  {
   "property": "C41",
   "status": "proved",
   "theorems": [
    "C41_memory_contents",
    "C41_memory_bounded",
    "C41_store_total",
    "C41_evicts_oldest_refuted"
   ],
   "note": "experiences_ as a list, indices and swaps as in the code. The eviction finding is a `_refuted` theorem."
  },
  {
   "property": "C42",
   "status": "proved",
   "theorems": [
    "C42_annealing",
    "C42_no_period",
    "C42_action",
    "C42_first_action_refuted",
    "C42_sample"
   ],
   "note": "doubles are reals; random numbers and shuffles are arbitrary arguments."
  },
  {
   "property": "C43",
   "status": "proved",
   "theorems": [
    "C43_target_update",
    "C43_converges",
    "C43_train"
   ],
   "note": "Uses the elementwise operation model (ElemModel.v) for rate*(t-s) including its special cases 0, 1, -1, and assign_sub. The source network's own update is an arbitrary function here (C38 treats it). Reals."
  },
  {
   "property": "C44",
   "status": "proved",
   "theorems": [
    "C44_fc_layer_value",
    "C44_fc_layer_parameters",
    "C44_mlp_value",
    "C44_mlp_bad_input",
    "C44_mlp_noutput",
    "C44_activations",
    "C44_rbm_value"
   ],
   "note": "Variables live in a store; nodes are the expressions of GradModel and values are those of eval (matmul incl. Strassen, add_axial_b, elementwise ops). Weight initialisation values are arbitrary (any data of the right shape)."
  },
  {
   "property": "C45",
   "status": "proved",
   "theorems": [
    "C45_fc_layer_clone",
    "C45_mlp_clone",
    "C45_mlp_independent",
    "C45_clone_disjoint",
    "C45_activations",
    "C45_mlp_assign",
    "C45_fc_layer_assign",
    "C45_mlp_move",
    "C45_rbm_clone",
    "C45_rbm_assign_refuted",
    "C45_db_net_clone_refuted",
    "C45_gd_net_copy",
    "C45_dqn_copy",
    "C45_dqn_copy_forgets_refuted",
    "C45_mlp_move_assign",
    "C45_rbm_move",
    "C45_rbm_move_assign_refuted",
    "C45_db_net_assign_refuted"
   ],
   "note": "Object identity of variables is modelled by positions in a store, deletion by clearing the position. Pure code defects are stated by the _refuted theorems. The graph nodes of a gd_net copy are rebuilt by setup on the cloned network."
  },
  {
   "property": "C46",
   "status": "proved",
   "theorems": [
    "C46_registered_once",
    "C46_lookup",
    "C46_check_registry"
   ],
   "note": "Registry as key/instance bindings; classes are numbers with an arbitrary derivation relation."
  },
  {
   "property": "C47",
   "status": "proved",
   "theorems": [
    "C47_edges",
    "C47_mirrors_audience",
    "C47_observer_gone_refuted",
    "C47_remote_edges",
    "C47_remote_ignores_destruction_refuted"
   ],
   "note": "adjlist_record's map of sets, the recorder calls of subject.cpp, and rpc_record's edge cache (reusing the C40 cache model). record_status::rec_good is taken as true."
  },
  {
   "property": "C48",
   "status": "proved",
   "theorems": [
    "C48_cross_corr_node_refuted",
    "C48_cross_corr_shape",
    "C48_cross_corr_shape_wraps_refuted",
    "C48_cross_corr_ignores_filter_refuted",
    "C48_cross_corr_out_of_bounds_refuted",
    "C48_cross_corr_always_out_of_bounds_refuted",
    "C48_cross_corr_reversed_axes_refuted"
   ],
   "note": "exact shape proved for all sizes; the out-of-bounds read is proved for every image, filter size and pair of axes in increasing order; cross_corr2d's gradient throws and is not modelled further"
  },
  {
   "property": "C49",
   "status": "proved",
   "theorems": [
    "C49_other_tensors_unchanged",
    "C49_copy_equals_original",
    "C49_move_transfers"
   ],
   "note": ""
  },
  {
   "property": "C50",
   "status": "proved",
   "theorems": [
    "C50_cadence",
    "C50_train_call",
    "C50_action_out_of_range_refuted"
   ],
   "note": "Feeding the placeholders is recorded as the data assigned; their shape check is C33."
  },
  {
   "property": "C51",
   "status": "proved",
   "theorems": [
    "C51_gradient_descent",
    "C51_call",
    "C51_simultaneous",
    "C51_unconnected_refuted"
   ],
   "note": "Graph-level law C51_simultaneous for every history and order; C51_gradient_descent composes it with C37_training_gradient (exact reals, node identity as in C37). Hypothesis: train returns (an uninitialised parameter makes it throw). Refuted without a shared operation: C51_unconnected_refuted."
  },
  {
   "property": "C52",
   "status": "proved",
   "theorems": [
    "C52_throw",
    "C52_wait",
    "C52_ownership",
    "C52_join",
    "C52_move",
    "C52_undefined",
    "C52_stop_is_enough",
    "C52_stop_asleep",
    "C52_asleep",
    "C52_join_hangs",
    "C52_recorder",
    "C52_lost_wakeup_refuted",
    "C52_notify_ended_refuted",
    "C52_misuse_refuted"
   ],
   "note": "Interleaving model with arbitrary workers; relaxed atomics taken as sequentially consistent; the promise handshake of the constructor is one step. Exceptions other than thread_interrupted leaving the worker are not modelled."
  },
  {
   "property": "C53",
   "status": "proved",
   "theorems": [
    "C53_mean",
    "C53_mean_axis",
    "C53_arithmetic_mean",
    "C53_axis_refuted",
    "C53_extract",
    "C53_extract_overflow_refuted"
   ],
   "note": "Stated on top of the graph-construction model of C32/C33, which now includes shape nodes (they are reused under the same rules)."
  },
  {
   "property": "C54",
   "status": "proved",
   "theorems": [
    "C54_behaviour",
    "C54_ownership",
    "C54_update_fills",
    "C54_stable",
    "C54_follows_shape_refuted",
    "C54_moved_from_refuted"
   ],
   "note": "Refinement of a memory-free specification (GenSpec.v) by a model over the tensor heap. Which notifications trigger update and when generators are deleted is left free (C27). Gradients of generators are constants and not part of this property."
  },
  {
   "property": "C55",
   "status": "proved",
   "theorems": [
    "C55_streams_are_consumers",
    "C55_sent_were_added",
    "C55_ends_only_if_revoked",
    "C55_after_end",
    "C55_only_sleep_blocks",
    "C55_sleeps_on",
    "C55_returned",
    "C55_shutdown_completes",
    "C55_sleeper_blocks_shutdown",
    "C55_late_subscriber_blocks_shutdown",
    "C55_lost_wakeup_refuted",
    "C55_two_sleepers_refuted",
    "C55_late_subscriber_refuted",
    "C55_revived_refuted"
   ],
   "note": "SubModel.v/SubLaws.v. subscriptions_ is used by several threads without a lock; the model takes each operation on it as atomic."
  },
  {
   "property": "C56",
   "status": "proved",
   "theorems": [
    "C56_file_lists_graph",
    "C56_verbose",
    "C56_names_distinct",
    "C56_undefined",
    "C56_current_graph",
    "C56_comma_refuted",
    "C56_self_loop_refuted"
   ],
   "note": "CsvModel.v/CsvSpec.v/CsvLaws.v, composed with C47 for the contents of the recorder. The iterator sit used after an insertion (formally invalidated by a rehash) is taken as valid."
  },
  {
   "property": "C57",
   "status": "proved",
   "theorems": [
    "C57_energy_meaning",
    "C57_free_energy",
    "C57_cost",
    "C57_pseudo_likelihood",
    "C57_pseudo_likelihood_flip",
    "C57_pseudo_likelihood_refuted",
    "C57_reconstruction",
    "C57_reconstruction_sign"
   ],
   "note": "Values over the real numbers (no rounding, no overflow of exp). The samples (binomial_sample) are arguments. Two findings: C57_pseudo_likelihood_refuted, C57_reconstruction_sign. Not covered: the gradients that train takes of the cost (through reduce_sum along an axis)."
  },
  {
   "property": "C58",
   "status": "proved",
   "theorems": [
    "C58_construct",
    "C58_clone",
    "C58_assign",
    "C58_move",
    "C58_move_assign",
    "C58_conv2d_ignores_filter_refuted",
    "C58_call_refuted"
   ],
   "note": "labels after a move and observers of moved variables are not modelled beyond what is stated; dimensions below 2^64; inputs not larger than the filter (wrap-around) are left to C48"
  },
  {
   "property": "C59",
   "status": "proved",
   "theorems": [
    "C59_training_gradient",
    "C59_contrastive_divergence",
    "C59_updates",
    "C59_same_as_before",
    "C59_axis_sum_below_two_operations_refuted",
    "C59_axis_sum_square_refuted"
   ],
   "note": "exact real arithmetic; the chain's end is an arbitrary node without the machine's variables (the sampled chain and as_constant are not modelled); the input's and chain's products fit"
  },
  {
   "property": "C60",
   "status": "proved",
   "theorems": [
    "C60_sample",
    "C60_sample_constant_refuted",
    "C60_sample_two_nodes_refuted",
    "C60_chain",
    "C60_no_round_refuted",
    "C60_train",
    "C60_independent_units",
    "C60_conditional_probability"
   ],
   "note": "a draw is an arbitrary value allowed by the binomial distribution's support; that draws are distributed so is std::binomial_distribution's contract; exact real arithmetic"
  },
  {
   "property": "C61",
   "status": "proved",
   "theorems": [
    "C61_value",
    "C61_rows_refuted",
    "C61_pretrain",
    "C61_finetune",
    "C61_cost_refuted",
    "C61_bias_refuted"
   ],
   "note": "the step functions are evaluated in the environment before the step, as freezing the cost does (C51, C50); exact real arithmetic; a draw is any value in the binomial distribution's support"
  },
  {
   "property": "C62",
   "status": "proved",
   "theorems": [
    "C62_window",
    "C62_finetune",
    "C62_rbm",
    "C62_other_graph_refuted",
    "C62_finetune_returns",
    "C62_rbm_returns"
   ],
   "note": "the sampled end of the chain is a node whose value in the state before the call is the sample; operations are functions of their arguments (EvalModel), so one evaluation of a sampling node gives one value; exact real arithmetic; C62_finetune_returns and C62_rbm_returns show that the hypotheses can be met for every network (learning rate other than 1)"
  },
  {
   "property": "C63",
   "status": "proved",
   "theorems": [
    "C63_fc_layer",
    "C63_rbm",
    "C63_mlp",
    "C63_db_net",
    "C63_fc_layer_clone",
    "C63_mlp_clone",
    "C63_rbm_clone_names_refuted"
   ],
   "note": "the uniform and constant initializers are recorded with their limits, the values they draw are C33's arbitrary sequence; numerals are modelled by the standard library's decimal printing"
  },
  {
   "property": "C64",
   "status": "proved",
   "theorems": [
    "C64_mean",
    "C64_mean_axis",
    "C64_extend",
    "C64_flip",
    "C64_flip_variable_refuted",
    "C64_sum_axis",
    "C64_l2norm_refuted"
   ],
   "note": "exact real arithmetic; tensors of more than one element (for one element see C36); the positive part covers reduce_sum and reduce_mean along any axis and over all elements, for extend and flip the exact relation between the gradient's elements and the derivatives is proved"
  },
  {
   "property": "C65",
   "status": "proved",
   "theorems": [
    "C65_training",
    "C65_rmsprop_descent",
    "C65_operators"
   ],
   "note": "exact real arithmetic; gradient nodes as built by derive (C37), no activation functions that are not smooth; the updaters are called between freezing and unfreezing the error as gd_net::train does; tensors have one shape per parameter"
  },
  {
   "property": "C66",
   "status": "proved",
   "theorems": [
    "C66_other_axes",
    "C66_same_axis"
   ],
   "note": "exact real arithmetic; the case of equal axes is characterised completely, including the cases in which the code throws or leaves its buffers"
  },
  {
   "property": "C67",
   "status": "proved",
   "theorems": [
    "C67_sum",
    "C67_product",
    "C67_quotient",
    "C67_product_refuted",
    "C67_quotient_refuted"
   ],
   "note": "exact real arithmetic; with respect to the large argument . For the number -1 as the gradient of a product's large argument, and for non-constant gradients of a single element, nothing is stated"
  },
  {
   "property": "C68",
   "status": "proved",
   "theorems": [
    "C68_product",
    "C68_quotient",
    "C68_sum_refuted",
    "C68_quotient_refuted"
   ],
   "note": "exact real arithmetic; with respect to the small argument (C67 for the large one). Sums and differences are stated for the variable itself"
  },
  {
   "property": "C69",
   "status": "proved",
   "theorems": [
    "C69_absent",
    "C69_arg_max",
    "C69_cross_corr",
    "C69_fit",
    "C69_clip_norm_refuted",
    "C69_comparison",
    "C69_comparison_elements",
    "C69_comparison_refuted"
   ],
   "note": "exact real arithmetic; these nodes as the root of the expression derived. clip_norm and the comparisons are stated for variables as arguments"
  },
  {
   "property": "C70",
   "status": "proved",
   "theorems": [
    "C70_move",
    "C70_move_assign",
    "C70_copy_assign",
    "C70_self_assign",
    "C70_move_back",
    "C70_others_unchanged",
    "C70_moved_from_refuted"
   ],
   "note": "labels and observers are not part of this model (observers of assigned nodes: ReactModel)"
  }
 ]
}
# What Print Assumptions lists for each theorem

Generated by tools/axioms.py; all axioms are those of Coq's standard library.

## Closed under the global context (no axioms)

364 theorems: C40_currents_are_latest, C40_fresh_consumer, C40_current_consumer, C40_replaced_consumer, C40_no_loss, C40_one_consumer_never_oversleeps, C40_crash_refuted, C40_lost_value_refuted, C40_delivered_twice_refuted, C40_two_consumers_oversleep_refuted, C40_nonvacuous, C62_window, C62_nonvacuous, C62_other_graph_refuted, C58_construct, C58_clone, C58_assign, C58_move, C58_move_assign, C58_conv2d_ignores_filter_refuted, C58_call_refuted, C58_nonvacuous, C45_fc_layer_clone, C45_mlp_clone, C45_mlp_independent, C45_clone_disjoint, C45_mlp_assign, C45_fc_layer_assign, C45_mlp_move, C45_rbm_clone, C45_rbm_assign_refuted, C45_nonvacuous, C32_reuse, C32_reuse_exact, C32_sum_product, C32_double_negation, C32_double_transpose, C32_matmul_flags, C32_second_call, C32_as_constant_never_reused, C32_printing_refuted, C32_conditional_side_refuted, C32_axial_order_refuted, C32_sum_shape_refuted, C32_set_label_refuted, C32_clip_norm_refuted, C32_name_refuted, C32_nonvacuous, C56_file_lists_graph, C56_verbose, C56_names_distinct, C56_undefined, C56_current_graph, C56_comma_refuted, C56_self_loop_refuted, C56_nonvacuous, C56_current_nonvacuous, C42_sample, C23_unary_pointwise, C23_binary_pointwise, C23_binary_incompatible, C23_nonvacuous, C24_axial_elements, C24_axial_scalar, C24_axial_square_refuted, C24_axial_single_big_refuted, C24_axial_axis_out_of_range_refuted, C24_nonvacuous, C25_unary, C25_fold_agrees, C25_binary, C25_binary_incompatible, C25_shape_lost_refuted, C29_eval_is_current, C29_value_unique, C29_calls_return, C29_frozen_keeps, C29_nonvacuous, C29_silent_assignment_refuted, C29_clone_refuted, C29_shape_of_frozen_refuted, C29_merge_thaws_refuted, C30_at_most_once, C30_several_at_most_once, C30_second_eval_idle, C30_nothing_stale, C30_nonvacuous, C30_unfreeze_refuted, C31_recovers, C31_eventually_returns, C31_nonvacuous, C31_refuted, C54_behaviour, C54_ownership, C54_update_fills, C54_stable, C54_follows_shape_refuted, C54_moved_from_refuted, C54_nonvacuous, C33_feed_reads_back, C33_feed_rejects, C33_feed_tensor, C33_feed_tensor_keeps_argument_refuted, C33_initialize, C33_initialize_without_initializer, C33_initialize_shape, C33_reinitialize_shape_refuted, C33_updater_from_node, C33_updater_from_constant, C33_assign_to_uninitialized_refuted, C33_other_nodes_unchanged, C33_clone, C33_nonvacuous, C34_constant_defined_shape, C34_constant_partial_shape, C34_constant_undefined_shape_refuted, C34_scalar_constant, C34_constants_never_change, C34_equals_scalar, C34_const_axis, C34_const_axis_bad_dimension_refuted, C34_nonvacuous, C70_move, C70_move_assign, C70_copy_assign, C70_self_assign, C70_move_back, C70_others_unchanged, C70_moved_from_refuted, C70_nonvacuous, C21_matmul_shape, C21_matmul_shape_low_rank, C21_matmul_elements, C21_matmul_transposed, C21_matmul_batch_overrun_refuted, C21_matmul_batch_dropped_refuted, C21_matmul_nonvacuous, C22_padding, C22_strassen_product, C22_strassen_matmul, C22_strassen_nonvacuous, C53_mean, C53_mean_axis, C53_axis_refuted, C53_extract, C53_extract_overflow_refuted, C53_nonvacuous, C44_fc_layer_value, C44_fc_layer_parameters, C44_mlp_value, C44_mlp_bad_input, C44_mlp_noutput, C44_nonvacuous, C45_mlp_move_assign, C45_rbm_move, C45_rbm_move_assign_refuted, C08_fit_node, C25_div_by_constant_zero, C48_cross_corr_node_refuted, C08_node_nonvacuous, C69_absent, C69_arg_max, C69_cross_corr, C69_comparison, C63_fc_layer, C63_rbm, C63_mlp, C63_db_net, C63_fc_layer_clone, C63_mlp_clone, C63_rbm_clone_names_refuted, C63_nonvacuous, C60_sample_constant_refuted, C60_sample_two_nodes_refuted, C59_same_as_before, C59_axis_sum_below_two_operations_refuted, C59_axis_sum_square_refuted, C27_histories_run, C27_links_mirror, C27_construct, C27_pointer_assign, C27_pointer_clear, C27_copy_assign, C27_move_assign, C27_move_construct, C28_destroy, C28_any_order, C28_null_tail_refuted, C27_move_generator_refuted, C27_copy_generator_refuted, C27_nonvacuous, C28_nonvacuous, C46_registered_once, C46_lookup, C46_check_registry, C46_nonvacuous, C47_edges, C47_mirrors_audience, C47_observer_gone_refuted, C47_remote_edges, C47_remote_ignores_destruction_refuted, C47_nonvacuous, C65_training, C35_keys_distinct, C35_write, C35_read, C35_read_no_file, C35_round_trip, C35_interrupted_save_refuted, C35_rank_change_refuted, C35_load_ignores_target_refuted, C35_model_round_trip, C35_model_initialize_incomplete_file, C35_dq_round_trip, C35_nonvacuous, C01_flat_idx_coordinate_inverse, C01_flat_idx_value, C01_coordinate_unknown_dimension_refuted, C01_nonvacuous, C02_iterate_visits_each_once, C02_iterate_order, C02_nonvacuous, C03_compatibility_reflexive_symmetric, C03_compatibility_same_rank, C03_compatibility_transitive_refuted, C03_compatibility_defined_transitive_refuted, C03_nonvacuous, C04_compatible_defined_shapes, C04_nonvacuous, C05_merge_value, C05_merge_laws, C05_merge_incompatible_refuted, C05_nonvacuous, C06_trim, C06_with_rank, C06_concatenate, C06_with_rank_truncates_refuted, C06_nonvacuous, C07_element_count_exact_below_2_64, C07_element_count_overflow_refuted, C07_allocate_bytes_exact, C07_nonvacuous, C55_streams_are_consumers, C55_sent_were_added, C55_ends_only_if_revoked, C55_after_end, C55_only_sleep_blocks, C55_sleeps_on, C55_returned, C55_shutdown_completes, C55_sleeper_blocks_shutdown, C55_late_subscriber_blocks_shutdown, C55_lost_wakeup_refuted, C55_two_sleepers_refuted, C55_late_subscriber_refuted, C55_revived_refuted, C55_nonvacuous, C55_shutdown_nonvacuous, C08_fit_toshape, C08_fit_same_shape, C08_fit_undefined_aborts, C08_nonvacuous, C09_buffer_matches_shape, C09_n_elems, C09_alloc_compatible_with_allowed_refuted, C09_alloc_compatible_when_gentle, C09_nonvacuous, C09_nonvacuous_gentle, C10_ownership_no_leak, C10_no_double_free_no_use_after_free, C10_nonvacuous, C11_set_shape_keeps_data, C11_set_shape_partial_dims, C11_partial_shape_ignored_refuted, C11_nonvacuous, C12_get_agrees_with_expose, C12_get_throws_past_the_end, C12_get_throws_last_dimension, C12_out_of_bound_aliases_refuted, C12_get_unallocated_throws, C12_nonvacuous, C13_guess_shape_sound_complete, C13_guess_no_data_refuted, C13_compatible_data_iff_guess, C13_compatible_data_guess_differ_refuted, C13_loosely_guess_holds_data, C13_loosely_compatible, C13_loosely_guess_undefined_refuted, C13_nonvacuous, C14_serialize_round_trip, C14_serialize_iff_allocated, C14_rank_mismatch_refuted, C14_ndebug_load_refuted, C14_nonvacuous, C15_malformed_proto, C15_rank_mismatch_aborts, C15_overlong_data_overflows_refuted, C15_rejected_proto_changes_shape_refuted, C15_nonvacuous, C49_other_tensors_unchanged, C49_copy_equals_original, C49_nonvacuous, C11_copy_from_fits_data, C49_move_transfers, C52_throw, C52_wait, C52_ownership, C52_join, C52_move, C52_undefined, C52_stop_is_enough, C52_stop_asleep, C52_asleep, C52_join_hangs, C52_recorder, C52_nonvacuous, C52_lost_wakeup_refuted, C52_notify_ended_refuted, C52_misuse_refuted, C52_states_nonvacuous, C51_simultaneous, C51_unconnected_refuted, C51_simultaneous_nonvacuous, C08_fit_operator, C08_nonvacuous_operator, C16_transpose_elements, C16_transpose_twice, C16_transpose_new_axis, C16_transpose_new_axis_scrambles_refuted, C16_transpose_beyond_rank_unwritten_refuted, C16_nonvacuous, C17_extend_elements, C17_extend_trivial_multipliers, C17_extend_new_axis_refuted, C17_nonvacuous, C18_reduced_shape, C18_compress_folds_axis, C18_fibres_partition, C18_compress_all, C18_compress_beyond_rank_copies, C18_nonvacuous, C19_arg_max_axis, C19_arg_max_bad_axis_throws, C19_arg_max_all, C19_arg_max_all_shape_refuted, C19_nonvacuous, C20_flip_elements, C20_flip_twice, C20_flip_bad_axis_refuted, C20_nonvacuous, C48_cross_corr_shape, C48_cross_corr_shape_wraps_refuted, C48_cross_corr_ignores_filter_refuted, C48_cross_corr_out_of_bounds_refuted, C48_cross_corr_always_out_of_bounds_refuted, C48_cross_corr_reversed_axes_refuted, C48_nonvacuous, C38_vgb, C38_rmsprop, C38_simultaneous_refuted, C38_targets, C38_ignore, C38_unimplemented_refuted, C38_targets_nonvacuous

## `ClassicalDedekindReals.sig_forall_dec`

1 theorems: C45_move_nonvacuous

## `ClassicalDedekindReals.sig_forall_dec`, `functional_extensionality_dep`

5 theorems: C45_dqn_copy, C42_annealing, C42_no_period, C42_first_action_refuted, C42_nonvacuous

## `ClassicalDedekindReals.sig_forall_dec`, `ClassicalDedekindReals.sig_not_dec`, `functional_extensionality_dep`

4 theorems: C60_independent_units, C38_rmsprop_nonvacuous, C38_rmsprop_refuted, C38_vgb_nonvacuous

## `ClassicalDedekindReals.sig_forall_dec`, `ClassicalDedekindReals.sig_not_dec`, `Classical_Prop.classic`, `functional_extensionality_dep`

122 theorems: C67_sum, C67_product, C67_quotient, C67_product_refuted, C67_quotient_refuted, C67_nonvacuous, C68_product, C68_quotient, C68_sum_refuted, C68_quotient_refuted, C68_nonvacuous, C62_finetune, C62_rbm, C62_finetune_returns, C62_rbm_returns, C45_activations, C45_db_net_clone_refuted, C45_gd_net_copy, C45_dqn_copy_forgets_refuted, C61_value, C61_rows_refuted, C61_pretrain, C61_finetune, C61_cost_refuted, C61_bias_refuted, C41_memory_contents, C41_memory_bounded, C41_store_total, C41_evicts_oldest_refuted, C41_nonvacuous, C42_action, C43_target_update, C43_converges, C43_train, C43_nonvacuous, C50_cadence, C50_train_call, C50_action_out_of_range_refuted, C50_nonvacuous, C25_abs_refuted, C25_div_zero_refuted, C25_nonvacuous, C26_clip_val, C26_clip_norm_const, C26_clip_norm_cap, C26_clip_norm_squared_refuted, C26_l2norm_node_refuted, C26_l2norm_const_refuted, C26_clip_norm_node_refuted, C26_nonvacuous, C39_sigmoid, C39_sigmoid_symmetry, C39_tanh, C39_softmax, C39_softmax_batch_refuted, C39_softmax_shift, C39_nonvacuous, C36_value, C36_gradient, C36_local, C36_absent, C36_builders, C36_plus_refuted, C36_clip_refuted, C36_derive_node_refuted, C36_round_refuted, C36_nonvacuous, C53_arithmetic_mean, C64_mean, C64_mean_axis, C44_activations, C44_rbm_value, C45_db_net_assign_refuted, C37_matmul_left, C37_matmul_right, C37_training_gradient, C37_reduce_sum, C37_sum_elementwise, C37_broadcast_refuted, C37_reduce_max_refuted, C37_bias_sum_refuted, C37_softmax_refuted, C37_skip_refuted, C37_bias_product_refuted, C37_explicit_transpose_refuted, C69_fit, C69_clip_norm_refuted, C69_comparison_elements, C69_comparison_refuted, C69_nonvacuous, C57_energy_meaning, C57_free_energy, C57_cost, C57_pseudo_likelihood, C57_pseudo_likelihood_flip, C57_pseudo_likelihood_refuted, C57_reconstruction, C57_reconstruction_sign, C57_nonvacuous, C60_sample, C60_chain, C60_no_round_refuted, C60_train, C60_nonvacuous, C60_conditional_probability, C59_training_gradient, C59_contrastive_divergence, C59_updates, C59_nonvacuous, C65_rmsprop_descent, C65_operators, C64_extend, C64_flip, C64_flip_variable_refuted, C64_sum_axis, C64_l2norm_refuted, C64_nonvacuous, C66_other_axes, C66_same_axis, C66_nonvacuous, C51_gradient_descent, C51_call

## `ClassicalDedekindReals.sig_forall_dec`, `ClassicalDedekindReals.sig_not_dec`, `Classical_Prop.classic`, `Description.constructive_definite_description`, `functional_extensionality_dep`

4 theorems: C61_nonvacuous, C37_nonvacuous, C65_nonvacuous, C51_nonvacuous

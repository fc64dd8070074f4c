# Print Assumptions of the property theorems

Generated by tools/mkaxioms.py; 329 theorems.

## Closed under the global context

C01_get_row_major, C02_get_ok_iff, C02_get_total, C02_leading_ignored, C03_get_empty_full_index, C03_get_never_panics_refuted, C04_position_bijection, C05_iter_indices, C06_iter_empty_always_panics, C06_iter_empty_refuted, C07_filler_scalar, C07_new_iff, C07_rc_new, C08_from_nested, C09_built_positions, C09_increment, C09_increment_zero_dimension, C09_positions, C09_tensor_index, C09_view_overflow_refuted, C09_view_positions, C09_zero_dimension_overflows, C10_checked, C10_checked_positive, C10_wrapped_get_panics, C10_wrapping_exact, C10_wrapping_refuted, C11_view_accepted, C11_view_get, C11_view_of_new_ranges, C12_view_eq, C12_view_materialise, C13_view_get_err_refuted, C13_view_get_exact, C14_slice_exactly, C14_slice_of_view_is_slice_of_tensor, C14_slice_of_view_refuted, C15_reshape_leading_ones, C15_reshape_refuted, C16_view_broadcast, C16_view_broadcast_refuted, C17_add_broadcast, C17_rc_add, C18_add_assoc, C18_add_comm, C18_add_zero, C19_add_empty_always_panics, C19_add_empty_refuted, C20_call_sub, C20_neg, C20_sub, C20_sub_self, C21_elementwise, C21_rc_elementwise, C22_mul, C23_scale_full_view, C23_scale_view_refuted, C24_sum, C24_sum_ring, C25_bmm_rank2, C25_bmm_rank3, C25_bmm_refused, C26_rows_end, C26_schedule_independent, C26_written_once, C27_bmm_assoc, C27_bmm_distr, C27_bmm_identity, C28_bmm_high_rank, C28_bmm_rank4_refuted, C29_dot, C30_dot_full_view, C30_dot_view_exact, C30_dot_view_refuted, C32_dot_rule, C32_rules_exact, C32_rules_exact_refuted, C33_all_sizes_refuted, C33_bmm_gradient_shuffled, C33_place, C33_small_matrices, C34_neg_sum_gives_ones, C34_plain_sum, C34_rule_ignores_gradient, C34_sum_scales_refuted, C35_product_gets_no_gradient, C35_product_has_no_history, C35_products_refuted, C36_backward_adds, C36_backward_again, C36_backward_k_times, C36_zero_grad, C37_gradient_shape, C38_sum_gradient_refuted, C38_sum_gradient_shape, C38_sum_preset, C39_backward_touches_ancestors, C39_forward_keeps_gradients, C39_tensors_never_change, C39_update_and_zero_grad, C40_programs_without_view_products, C40_well_formed, C40_well_formed_refuted, C41_backward_succeeds, C41_backward_terminates, C41_elementwise_succeeds, C41_fails_at_once, C41_programs_terminate, C42_abs_root_fails, C42_bmm_root_fails, C42_dot_root_succeeds, C42_one_element_roots_refuted, C43_each_message_once, C43_no_job_panics, C43_schedule_independent, C44_deterministic_refuted, C44_one_worker, C44_some_order, C45_any_order_bound, C45_any_order_refuted, C45_in_order_ends, C45_runs_are_finite, C46_no_lost_update_refuted, C46_one_at_a_time, C46_some_are_kept, C47_activation, C47_linear_forward, C47_mlp_composition, C47_mlp_forward, C48_linear, C48_other_lengths, C48_params, C48_update_params, C48_update_with_own, C49_descent_elements, C49_missing_gradient, C49_sgd_step, C49_sgd_step_linear, C50_backward_reaches_all_rounds, C50_history_grows, C50_memory_grows, C50_no_history_refuted, C51_eq_equivalence, C51_eq_spec, C52_deep_clone, C52_isolation, C54_all_programs_refuted, C54_gradients_as_values, C55_call_grad, C55_grad_is_a_snapshot, C55_grad_is_current, C56_contributions_are_kept, C56_gradients_have_no_history_refuted, C57_no_reference_cycles, C57_update_grad, C57_with_update_grad_refuted, C60_main, C60_main_sizes, C60_training_runs, C61_agrees, C61_atomic_refuted, C61_backward_left, C61_invariants, C61_other_calls, C61_recover, C61_still_works, C62_acyclic, C62_bmm_view, C62_gradient_calls, C62_gradient_shapes, C62_includes, C62_meaning, C62_terminates, C62_values_kept, C62_well_formed_partial, C62_well_formed_refuted, C63_backward_of_copy, C63_copies_partial, C63_copies_refuted, C63_history, C63_unique, C64_counters_watch, C64_doubling, C64_linear_work_refuted, C64_updates_are_paths, C64_upper_bound, C64_used_once, C65_bounded_depth_refuted, C65_depth_is_longest_path, C65_training_deepens, C66_any_relation, C66_main, C66_panics, C66_shapes, C67_fits, C67_mod, C68_fits_refuted, C68_never_wrong, C68_room, C68_room_unsigned, C70_counts, C70_nothing_dangles, C70_results, C71_exact, C71_nothing_left, C71_nothing_left_refuted, C71_why_alive, C72_bound, C72_chain, C72_constant_refuted, C73_count, C73_elem, C73_first, C73_index, C73_set, C73_shapes, C74_backward, C74_cells_example, C74_independent, C74_shared_refuted, C74_snapshot, C74_some_are_kept, C74_zeroed_refuted, C75_bounded, C75_exclusive, C75_no_deadlock, C76_shapes_decide, C76_shapes_unique, C77_backward_exactly, C77_panics_otherwise, C77_shapes_only, C78_batches_refuted, C78_panics, C78_sum_exactly, C80_exact, C80_floats_refuted, C80_main_exact, C80_main_same_course, C80_one_worker, C80_possible, C80_same_course, C85_ancestors_only, C85_succeeds_exactly, C85_work_in_between, C86_bits, C86_checked, C86_small, C86_wrapping, C86_wrapping_always_refuted, C87_addition, C87_any_program, C87_bmm_jvp, C87_bmm_jvp_checked, C87_checked, C87_derivatives, C87_indices, C87_matrix_product, C87_model, C87_model_derivatives, C87_model_views, C87_operations, C87_split_writer, C87_storage, C87_views, C87_words, C88_bits, C88_more_turns, C88_never_wrong, C88_programs, C88_rules, C88_small, C88_wide_any, C88_wide_words, C89_main, C89_main_bits, C89_main_small, C89_never_wrong, C89_small, C89_training

## `ClassicalDedekindReals.sig_forall_dec`, `ClassicalDedekindReals.sig_not_dec`, `FunctionalExtensionality.functional_extensionality_dep`

C31_all_sizes_refuted, C31_backward_is_gradient, C31_program_gradient, C31_sum_programs, C53_large_refuted, C53_ready_start, C53_training, C53_training_step, C58_any_step_refuted, C58_first_order, C58_gradient_exists, C58_loss_value, C58_step_decreases_loss, C79_checker, C79_checker_main, C81_checker, C81_checker_main, C82_away_from_kinks, C82_backward_keeps_branches, C82_derivative_if_there_is_one_refuted, C82_sum_programs, C83_fitted_network_stays_refuted, C83_kept_loss_is_the_loss, C83_training_anywhere, C83_training_step_anywhere, C84_best_round, C84_losses_determined, C84_reaches_the_optimum, C84_regret, C85_gradient, C88_gradient, C89_descent

## `ClassicalDedekindReals.sig_forall_dec`, `ClassicalDedekindReals.sig_not_dec`, `Classical_Prop.classic`, `FunctionalExtensionality.functional_extensionality_dep`

C44_within_rounding, C59_bmm, C59_bmm_backward, C59_bmm_batch, C59_dot, C59_sum, C59_sum_finite, C69_whole_numbers, C69_with_signs, C79_gradient, C79_main, C79_running_error, C79_unknown_signs_refuted, C81_any_order, C81_gradient, C81_main, C81_schedules_agree, C81_whole_numbers

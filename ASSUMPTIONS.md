# `Print Assumptions` of every theorem

Generated by `tools/mk_assumptions.py` from the compiled development.

## Closed under the global context (no axioms)

* `C01_constant_fires_exactly` (P_Schedule.v)
* `C01_polynomial_fires_exactly` (P_Schedule.v)
* `C02_constant_accepts_iff` (P_Schedule.v)
* `C02_polynomial_accepts_iff` (P_Schedule.v)
* `C02_rejections_are_ValueError` (P_Schedule.v)
* `C05_mask_is_threshold_set` (P_Mask.v)
* `C05_kept_larger_than_pruned` (P_Mask.v)
* `C05_update_succeeds` (P_Mask.v)
* `C05_elementwise_entry` (P_Mask.v)
* `C06_at_least_k_kept` (P_Mask.v)
* `C06_exactly_k_kept_when_distinct` (P_Mask.v)
* `C06_keep_count_is_a_function` (P_Mask.v)
* `C06_zero_sparsity_keeps_all` (P_Mask.v)
* `C07_refuted` (P_Mask.v)
* `C08_mask_constant_on_blocks` (P_Mask.v)
* `C08_blocks_chosen_by_magnitude` (P_Mask.v)
* `C08_rejected_iff_thin` (P_Mask.v)
* `C08_refuted` (P_Mask.v)
* `C08_blocks_need_matrices` (P_Mask.v)
* `C09_expand_index_law` (P_Mask.v)
* `C09_kronecker_index_law` (P_Mask.v)
* `C09_expand_is_kronecker_with_ones` (P_Mask.v)
* `C09_expand_rejects` (P_Mask.v)
* `C10_groups_keep_exactly_the_largest` (P_Mask.v)
* `C10_entries_are_0_or_1` (P_Mask.v)
* `C10_succeeds_for_m_lt_n_else_rejected` (P_Mask.v)
* `C10_on_the_weight` (P_Mask.v)
* `C11_checker_accepts_pruned` (P_Mask.v)
* `C11_checker_exact` (P_Mask.v)
* `C11_checker_exact_channels_last` (P_Mask.v)
* `C12_rearrange_lossless` (P_Mask.v)
* `C12_mask_lands_on_its_weight` (P_Mask.v)
* `C12_other_ranks_rejected` (P_Mask.v)
* `C12_ranks_2_and_4_accepted` (P_Mask.v)
* `C13_step_counts_batches` (P_PruneWrapper.v)
* `C13_fresh_is_uniform` (P_PruneWrapper.v)
* `C14_first_batch_without_callback_raises` (P_PruneWrapper.v)
* `C14_never_raised_after_begin` (P_PruneWrapper.v)
* `C14_refuted_second_batch_passes` (P_PruneWrapper.v)
* `C14_refuted_raised_after_begin` (P_PruneWrapper.v)
* `C15_masked_weights_are_zero` (P_PruneWrapper.v)
* `C15_from_any_wellformed_state` (P_PruneWrapper.v)
* `C15_every_epoch_end` (P_PruneWrapper.v)
* `C15_weights_are_masked_old_weights` (P_PruneWrapper.v)
* `C15_kept_weights_unchanged` (P_PruneWrapper.v)
* `C16_masks_change_only_when_due` (P_PruneWrapper.v)
* `C16_due_batch_recomputes` (P_PruneWrapper.v)
* `C16_frozen_after_last_due_step` (P_PruneWrapper.v)
* `C16_constant_schedule_ends` (P_PruneWrapper.v)
* `C16_polynomial_schedule_ends` (P_PruneWrapper.v)
* `C16_m_by_n_first_step_only` (P_PruneWrapper.v)
* `C17_uniform_models_get_a_step` (P_PruneWrapper.v)
* `C17_refuted_step_lost` (P_PruneWrapper.v)
* `C17_refuted_step_missing` (P_PruneWrapper.v)
* `C18_strip_after_prune_is_identity` (P_PruneModel.v)
* `C18_strip_removes_every_wrapper` (P_PruneModel.v)
* `C18_strip_succeeds` (P_PruneModel.v)
* `C18_pruning_is_invisible_to_strip` (P_PruneModel.v)
* `C18_refusals_are_value_errors` (P_PruneModel.v)
* `C19_wraps_exactly_the_allowed_layers` (P_PruneModel.v)
* `C19_idempotent` (P_PruneModel.v)
* `C19_idempotent_on_lists` (P_PruneModel.v)
* `C19_fails_iff_some_layer_unsupported` (P_PruneModel.v)
* `C19_wrappable_iff` (P_PruneModel.v)
* `C19_refusals_are_value_errors` (P_PruneModel.v)
* `C19_refuted_single_wrapped_layer` (P_PruneModel.v)
* `C19_refuted_policy_ignored_on_lists` (P_PruneModel.v)
* `C20_config_roundtrip_iff_no_m_by_n_partial` (P_PruneModel.v)
* `C20_refuted` (P_PruneModel.v)
* `C22_nearest` (P_Cluster.v)
* `C22_distinct` (P_Cluster.v)
* `C22_idempotent` (P_Cluster.v)
* `C22_history` (P_Cluster.v)
* `C22_history_indices` (P_Cluster.v)
* `C22_history_distinct` (P_Cluster.v)
* `C23_per_slice` (P_Cluster.v)
* `C23_channels_last_partial` (P_Cluster.v)
* `C23_channels_first_refuted` (P_Cluster.v)
* `C24_sparsity_preserved` (P_Cluster.v)
* `C25_sum` (P_Cluster.v)
* `C25_mean` (P_Cluster.v)
* `C25_total` (P_Cluster.v)
* `C25_per_channel` (P_Cluster.v)
* `C26_gradients` (P_Cluster.v)
* `C26_forward_partial` (P_Cluster.v)
* `C26_forward_refuted` (P_Cluster.v)
* `C27_zero_centroid` (P_Cluster.v)
* `C27_never_fails` (P_Cluster.v)
* `C27_all_zero` (P_Cluster.v)
* `C28_linear` (P_Cluster.v)
* `C28_defined` (P_Cluster.v)
* `C29_interpolation_refuted` (P_Cluster.v)
* `C29_grid_point_partial` (P_Cluster.v)
* `C29_sorted_in_range` (P_Cluster.v)
* `C30_restores_partial` (P_Cluster.v)
* `C30_order_refuted` (P_Cluster.v)
* `C31_plain` (P_Cluster.v)
* `C31_conv2d` (P_Cluster.v)
* `C31_conv2d_not_an_int` (P_Cluster.v)
* `C31_others` (P_Cluster.v)
* `C32_enum_values` (P_Cluster.v)
* `C32_roundtrip` (P_Cluster.v)
* `C32_reachable` (P_Cluster.v)
* `C33_fake_quant` (P_Quant.v)
* `C33_zero_range` (P_Quant.v)
* `C33_fixed_range` (P_Quant.v)
* `C34_zero_in_range` (P_Quant.v)
* `C34_last_value_symmetric` (P_Quant.v)
* `C34_all_values_symmetric` (P_Quant.v)
* `C34_moving_average_symmetric` (P_Quant.v)
* `C35_all_values` (P_Quant.v)
* `C35_last_value_forgets` (P_Quant.v)
* `C35_last_value_range` (P_Quant.v)
* `C35_moving_average` (P_Quant.v)
* `C35_exp_average_hull` (P_Quant.v)
* `C36_inference_keeps_state` (P_Quant.v)
* `C36_training_output` (P_Quant.v)
* `C37_independent` (P_Quant.v)
* `C37_training` (P_Quant.v)
* `C37_ranks` (P_Quant.v)
* `C38_levels_partial` (P_Quant.v)
* `C38_levels_per_channel_partial` (P_Quant.v)
* `C38_fixed_quantizer_refuted` (P_Quant.v)
* `C39_moving_average_per_axis_refuted` (P_Quant.v)
* `C39_usable_partial` (P_Quant.v)
* `C40_round_trip_partial` (P_Quant.v)
* `C40_equality_partial` (P_Quant.v)
* `C40_default_8bit_round_trip_refuted` (P_Quant.v)
* `C40_config_round_trip_partial` (P_Quant.v)
* `C40_config_equality_partial` (P_Quant.v)
* `C40_config_equality_refuted` (P_Quant.v)
* `C41_effective_weights` (P_QWrapper.v)
* `C41_never_fails` (P_QWrapper.v)
* `C41_trainable_v2` (P_QWrapper.v)
* `C41_trainable_v1_partial` (P_QWrapper.v)
* `C41_trainable_v1_refuted` (P_QWrapper.v)
* `C42_rejected` (P_QWrapper.v)
* `C42_as_declared` (P_QWrapper.v)
* `C42_activation_layer` (P_QWrapper.v)
* `C43_annotate` (P_QuantizeApply.v)
* `C43_idempotent` (P_QuantizeApply.v)
* `C43_nested` (P_QuantizeApply.v)
* `C43_errors` (P_QuantizeApply.v)
* `C44_annotated` (P_QuantizeApply.v)
* `C44_not_annotated` (P_QuantizeApply.v)
* `C44_names` (P_QuantizeApply.v)
* `C44_nothing_else` (P_QuantizeApply.v)
* `C44_unsupported` (P_QuantizeApply.v)
* `C44_arguments` (P_QuantizeApply.v)
* `C44_terminates` (P_QuantizeApply.v)
* `C44_unsupported_error` (P_QuantizeApply.v)
* `C45_user_config_refuted` (P_QuantizeApply.v)
* `C45_output_refuted` (P_QuantizeApply.v)
* `C45_user_config_partial` (P_QuantizeApply.v)
* `C46_match_sound` (P_Transform.v)
* `C46_replace_effect` (P_Transform.v)
* `C46_untouched` (P_Transform.v)
* `C46_weights` (P_Transform.v)
* `C46_no_dangling` (P_Transform.v)
* `C46_replace_no_dangling` (P_Transform.v)
* `C46_terminates` (P_Transform.v)
* `C46_complete` (P_Transform.v)
* `C47_terminates_refuted` (P_Transform.v)
* `C47_terminates_partial` (P_Transform.v)
* `C48_fix_range_refuted` (P_QuantizeApply.v)
* `C48_sequential_partial` (P_QuantizeApply.v)
* `C48_functional_partial` (P_QuantizeApply.v)
* `C48_remove_range_partial` (P_QuantizeApply.v)
* `C48_remove_functional_partial` (P_QuantizeApply.v)
* `C48_sequential_refused` (P_QuantizeApply.v)
* `C49_zeros` (P_Preserve.v)
* `C49_like_plain` (P_Preserve.v)
* `C49_never_fails` (P_Preserve.v)
* `C50_dense` (P_Preserve.v)
* `C50_conv_channels` (P_Preserve.v)
* `C50_conv_whole` (P_Preserve.v)
* `C50_zeros` (P_Preserve.v)
* `C50_inference` (P_Preserve.v)
* `C50_never_fails` (P_Preserve.v)
* `C50_conv_whole_refuted` (P_Preserve.v)
* `C50_channels_first_fails` (P_Preserve.v)
* `C50_channels_first_refuted` (P_Preserve.v)
* `C51_refuted` (P_Preserve.v)
* `C51_exactly` (P_Preserve.v)
* `C51_zeros_partial` (P_Preserve.v)
* `C52_unpack_pack` (P_Bitpack.v)
* `C52_packed_in_range` (P_Bitpack.v)
* `C52_packed_size` (P_Bitpack.v)
* `C52_stage_lossless` (P_Bitpack.v)
* `C52_accepted_bits` (P_Bitpack.v)
* `C53_error_bound` (P_Stages.v)
* `C53_codes_fit` (P_Stages.v)
* `C53_accepted_iff` (P_Stages.v)
* `C53_refused` (P_Stages.v)
* `C53_kept` (P_Stages.v)
* `C54_shape_recorded` (P_Hadamard.v)
* `C57_split_exact` (P_Stages.v)
* `C57_difference_exact` (P_Stages.v)
* `C58_lossless_trees` (P_Encoder.v)
* `C59_single_summand` (P_Encoder.v)
* `C59_sum_in_between` (P_Encoder.v)
* `C60_gather_flag_refuted` (P_Encoder.v)
* `C60_flags_partial` (P_Encoder.v)
* `C61_split_merge` (P_Encoder.v)
* `C61_merge_values` (P_Encoder.v)
* `C61_merge_rejects_conflicts` (P_Encoder.v)
* `C61_error_kinds` (P_Encoder.v)
* `C61_split_error` (P_Encoder.v)
* `C62_repacked_at_own_key_partial` (P_Encoder.v)
* `C62_repacked_at_own_key_refuted` (P_Encoder.v)
* `C63_half_step` (P_Stages.v)
* `C65_kernel_and_bias_partial` (P_Compress.v)
* `C65_without_bias_refuted` (P_Compress.v)
* `C65_bias_only_refuted` (P_Compress.v)
* `C65_other_layers_refuted` (P_Compress.v)
* `C65_model_partial` (P_Compress.v)
* `C65_model_refuted` (P_Compress.v)
* `C66_refuted` (P_Compress.v)
* `C66_compressed_layers_partial` (P_Compress.v)
* `C67_rank` (P_Compress.v)
* `C67_history` (P_Compress.v)
* `C68_returns` (P_Compat.v)
* `C68_observed_refuted` (P_Compat.v)
* `C68_avoids` (P_Compat.v)
* `C68_unique` (P_Compat.v)
* `C68_zero_based_partial` (P_Compat.v)
* `C68_zero_based_refuted` (P_Compat.v)
* `C68_sequence` (P_Compat.v)
* `C68_independent` (P_Compat.v)
* `C69_transparent` (P_Metrics.v)
* `C69_history` (P_Metrics.v)
* `C69_interrupt_refuted` (P_Metrics.v)
* `C69_names` (P_Metrics.v)
* `C70_constant_roundtrip` (P_Schedule.v)
* `C70_polynomial_roundtrip` (P_Schedule.v)
* `C71_refuted` (P_PruneModel.v)
* `C72_uniform_quantization_commutes` (P_Stages.v)
* `C74_make` (P_Encoder.v)
* `C74_encode_total` (P_Encoder.v)
* `C74_key_errors` (P_Encoder.v)
* `C75_conv_transpose` (P_Quant.v)
* `C76_freezing_refuted` (P_QWrapper.v)
* `C77_zero_channel_refuted` (P_Cluster.v)
* `C78_no_bias_refuted` (P_Cluster.v)
* `C78_no_bias_channels_first_refuted` (P_Cluster.v)
* `C78_bias_partial` (P_Cluster.v)
* `C79_scope_partial` (P_Cluster.v)
* `C79_scope_refuted` (P_Cluster.v)
* `C80_mha_strip_refuted` (P_Cluster.v)
* `C80_mha_values` (P_Cluster.v)
* `C81_only_kernels_and_embeddings` (P_PruneModel.v)
* `C81_kernels_are_pruned` (P_PruneModel.v)
* `C81_every_recurrent_cell_is_pruned` (P_PruneModel.v)
* `C81_recurrent_layers_supported_iff` (P_PruneModel.v)
* `C82_collects_every_wrapper` (P_PruneModel.v)
* `C82_collects_what_pruning_wrapped` (P_PruneModel.v)
* `C83_kernel_quantized_refuted` (P_QuantizeApply.v)
* `C83_kernel_quantized_partial` (P_QuantizeApply.v)
* `C84_input_order_refuted` (P_QuantizeApply.v)
* `C84_input_order_partial` (P_QuantizeApply.v)
* `C85_layout_terminates` (P_QuantizeApply.v)
* `C86_patterns_refuted` (P_QuantizeApply.v)
* `C86_patterns_partial` (P_QuantizeApply.v)
* `C87_no_quantization_inside_refuted` (P_QuantizeApply.v)
* `C87_conv_partial` (P_QuantizeApply.v)
* `C88_first_pass_partial` (P_Preserve.v)
* `C88_first_pass_refuted` (P_Preserve.v)
* `C89_annotated_partial` (P_Preserve.v)
* `C89_only` (P_Preserve.v)
* `C89_otherwise_default` (P_Preserve.v)
* `C89_relu_refuted` (P_Preserve.v)
* `C89_concatenate_refuted` (P_Preserve.v)
* `C89_arguments` (P_Preserve.v)
* `C90_exactly` (P_Preserve.v)
* `C90_class_refuted` (P_Preserve.v)
* `C90_producer_refuted` (P_Preserve.v)
* `C91_reload_refuted` (P_Preserve.v)
* `C91_reload_partial` (P_Preserve.v)
* `C92_different_svd` (P_Compress.v)
* `C92_periodical_svd` (P_Compress.v)
* `C92_same_svd` (P_Compress.v)
* `C92_bias_only` (P_Compress.v)
* `C92_weight_clustering` (P_Compress.v)
* `C93_distinct` (P_Compress.v)
* `C94_svd` (P_Compress.v)
* `C94_negative_rank` (P_Compress.v)
* `C94_same_forward` (P_Compress.v)
* `C94_kernel_and_bias` (P_Compress.v)
* `C95_refuted` (P_Compress.v)
* `C95_other_algorithms_partial` (P_Compress.v)
* `C96_refuted` (P_Compress.v)
* `C96_layer_order_partial` (P_Compress.v)
* `C97_elementwise` (P_Tools.v)
* `C97_blocks` (P_Tools.v)
* `C97_blocks_accepted` (P_Tools.v)
* `C97_interval_refuted` (P_Tools.v)
* `C98_distinct_names_partial` (P_Tools.v)
* `C98_refuted` (P_Tools.v)
* `C99_every_f_batches_partial` (P_Tools.v)
* `C99_every_epoch_partial` (P_Tools.v)
* `C99_steps_per_execution_refuted` (P_Tools.v)
* `C99_layers_partial` (P_Tools.v)
* `C99_nested_refuted` (P_Tools.v)
* `C100_sparsity` (P_Tools.v)
* `C100_ignored` (P_Tools.v)
* `C100_report` (P_Tools.v)
* `C100_verdict` (P_Tools.v)
* `C101_bits_refuted` (P_NBit.v)
* `C101_dense_partial` (P_NBit.v)
* `C101_later_partial` (P_NBit.v)
* `C101_conv_partial` (P_NBit.v)
* `C101_apply` (P_NBit.v)
* `C101_supported` (P_NBit.v)
* `C102_constructed` (P_NBit.v)
* `C102_reload_refuted` (P_NBit.v)
* `C102_switched_partial` (P_NBit.v)
* `C102_switch_off` (P_NBit.v)
* `C103_registry_partial` (P_NBit.v)
* `C103_gelu_refuted` (P_NBit.v)
* `C103_layout_refuted` (P_NBit.v)
* `C104_fixed_partial` (P_NBit.v)
* `C104_again_refuted` (P_NBit.v)
* `C104_others_partial` (P_NBit.v)
* `C105_per_axis_refuted` (P_NBit.v)
* `C105_per_axis_partial` (P_NBit.v)
* `C106_declared_partial` (P_Wrappers.v)
* `C106_learning_phase` (P_Wrappers.v)
* `C106_positional` (P_Wrappers.v)
* `C106_undeclared` (P_Wrappers.v)
* `C106_lost_refuted` (P_Wrappers.v)
* `C107_transparent_partial` (P_Wrappers.v)
* `C107_accepted` (P_Wrappers.v)
* `C107_keyword_only_refuted` (P_Wrappers.v)
* `C107_refused` (P_Wrappers.v)
* `C108_identity` (P_Wrappers.v)
* `C108_quantizes` (P_Wrappers.v)
* `C108_accepted` (P_Wrappers.v)
* `C108_config` (P_Wrappers.v)
* `C108_refused` (P_Wrappers.v)
* `C109_trainable_partial` (P_Wrappers.v)
* `C109_freezing_refuted` (P_Wrappers.v)
* `C110_restored_partial` (P_Wrappers.v)
* `C110_cluster_rejected_refuted` (P_Wrappers.v)
* `C110_cluster_kernel_refuted` (P_Wrappers.v)
* `C111_strip_partial` (P_StripCqat.v)
* `C111_subclassed_partial` (P_StripCqat.v)
* `C111_removed` (P_StripCqat.v)
* `C111_argument_refuted` (P_StripCqat.v)
* `C111_depthwise_refuted` (P_StripCqat.v)
* `C111_scope_refuted` (P_StripCqat.v)
* `C111_nested_refuted` (P_StripCqat.v)
* `C111_no_model_refuted` (P_StripCqat.v)
* `C111_argument_error` (P_StripCqat.v)
* `C112_inference_partial` (P_StripCqat.v)
* `C112_training_refuted` (P_StripCqat.v)
* `C113_advance_partial` (P_Estimator.v)
* `C113_refuted` (P_Estimator.v)
* `C113_race_refuted` (P_Estimator.v)
* `C113_bounds_partial` (P_Estimator.v)
* `C113_attained` (P_Estimator.v)
* `C113_fails_iff` (P_Estimator.v)
* `C113_first_step_refuted` (P_Estimator.v)
* `C113_nested_refuted` (P_Estimator.v)
* `C113_given_partial` (P_Estimator.v)
* `C113_constructor` (P_Estimator.v)
* `C113_constructor_error` (P_Estimator.v)
* `C117_accepted` (P_CommonEncoders.v)
* `C119_dense` (P_Epr.v)
* `C119_conv` (P_Epr.v)
* `C119_start_dense` (P_Epr.v)
* `C119_start_conv` (P_Epr.v)
* `C120_dense_partial` (P_Epr.v)
* `C120_conv_partial` (P_Epr.v)
* `C120_half_precision_refuted` (P_Epr.v)
* `C120_large_refuted` (P_Epr.v)
* `C121_layer_partial` (P_Epr.v)
* `C121_conv1d_refuted` (P_Epr.v)
* `C121_without_bias_refuted` (P_Epr.v)
* `C121_other_layers_refuted` (P_Epr.v)
* `C122_attributes_partial` (P_Epr.v)
* `C122_attributes_refuted` (P_Epr.v)
* `C122_penalty` (P_Epr.v)
* `C122_losses` (P_Epr.v)
* `C122_no_parameters_refuted` (P_Epr.v)
* `C123_separable2d_partial` (P_SepConv.v)
* `C123_separable1d_partial` (P_SepConv.v)
* `C123_causal` (P_SepConv.v)
* `C123_settings` (P_SepConv.v)
* `C123_settings_1d` (P_SepConv.v)
* `C123_dtype_refuted` (P_SepConv.v)
* `C124_gather_encoder_is_created` (P_Gather.v)
* `C124_initial_state` (P_Gather.v)
* `C124_get_params` (P_Gather.v)
* `C124_encode` (P_Gather.v)
* `C124_decode_before_sum` (P_Gather.v)
* `C124_decode_after_sum` (P_Gather.v)
* `C124_update_state` (P_Gather.v)
* `C124_data_dependent_shapes_refuted` (P_Gather.v)
* `C125_modes_belong_to_their_tensors` (P_Gather.v)
* `C126_simple_encoder_is_created` (P_Gather.v)
* `C126_round_trip` (P_Gather.v)
* `C127_wrong_state_rejected` (P_Gather.v)
* `C127_wrong_input_rejected` (P_Gather.v)
* `C127_wrong_encoding_rejected` (P_Gather.v)
* `C127_wrong_part_rejected` (P_Gather.v)
* `C127_wrong_number_of_updates_rejected` (P_Gather.v)
* `C128_names_resolve` (P_ClusterRnn.v)
* `C128_only_cell_matrices` (P_ClusterRnn.v)
* `C128_every_cell` (P_ClusterRnn.v)
* `C128_names_distinct` (P_ClusterRnn.v)
* `C128_other_names` (P_ClusterRnn.v)
* `C128_shared_cell_refuted` (P_ClusterRnn.v)
* `C129_forward` (P_ClusterRnn.v)
* `C130_stripped_partial` (P_ClusterRnn.v)
* `C130_shared_cell_refuted` (P_ClusterRnn.v)
* `C131_keras_layers_build_partial` (P_ClusterRnn.v)
* `C131_refused` (P_ClusterRnn.v)
* `C131_bidirectional_stack_refuted` (P_ClusterRnn.v)
* `C131_bidirectional_custom_refuted` (P_ClusterRnn.v)
* `C131_nested_stack_refuted` (P_ClusterRnn.v)
* `C131_cell_layer_refuted` (P_ClusterRnn.v)
* `C131_user_rnn_refuted` (P_ClusterRnn.v)
* `C132_forward_partial` (P_QRnn.v)
* `C132_extra_list_refuted` (P_QRnn.v)
* `C132_missing_list_refuted` (P_QRnn.v)
* `C132_atomic_refuted` (P_QRnn.v)
* `C132_bidirectional_refuted` (P_QRnn.v)
* `C133_floats` (P_Cmwc.v)
* `C133_float32_partial` (P_Cmwc.v)
* `C133_float32_refuted` (P_Cmwc.v)
* `C133_signs_partial` (P_Cmwc.v)
* `C133_signs_refuted` (P_Cmwc.v)
* `C133_prefix` (P_Cmwc.v)
* `C133_prefix_refuted` (P_Cmwc.v)
* `C133_seed_collision_refuted` (P_Cmwc.v)
* `C133_bits_reused_refuted` (P_Cmwc.v)
* `C133_refused` (P_Cmwc.v)
* `C134_accepted` (P_QWrapper.v)
* `C134_refused` (P_QWrapper.v)
* `C135_takes_effect_partial` (P_Transform.v)
* `C135_no_change` (P_Transform.v)
* `C135_shared_names_refuted` (P_Transform.v)
* `C136_match_connected_partial` (P_Transform.v)
* `C136_inputs_refused` (P_Transform.v)
* `C137_conv_bn` (P_Layout8.v)
* `C137_conv_reshape_bn` (P_Layout8.v)
* `C137_conv_bn_relu` (P_Layout8.v)
* `C137_conv_reshape_bn_relu` (P_Layout8.v)
* `C137_layer_relu` (P_Layout8.v)
* `C137_concat` (P_Layout8.v)
* `C137_input` (P_Layout8.v)
* `C137_sepconv` (P_Layout8.v)
* `C137_sepconv1d` (P_Layout8.v)
* `C137_sepconv_refused` (P_Layout8.v)
* `C137_change_seen` (P_Layout8.v)
* `C138_registry` (P_NBit.v)
* `C138_activation` (P_NBit.v)
* `C138_wrappers` (P_NBit.v)
* `C139_created` (P_CoreTree.v)
* `C139_every_call_succeeds` (P_CoreTree.v)
* `C139_simple_round_trip` (P_CoreTree.v)
* `C139_modes` (P_CoreTree.v)
* `C140_sum_of_clients` (P_CoreTree.v)
* `C140_one_client_is_simple_encoder` (P_CoreTree.v)
* `C142_flag` (P_EvalPruning.v)
* `C142_flag_total` (P_EvalPruning.v)
* `C142_names` (P_EvalPruning.v)
* `C142_names_refuted` (P_EvalPruning.v)
* `C142_refused` (P_EvalPruning.v)
* `C142_success` (P_EvalPruning.v)
* `C142_failures` (P_EvalPruning.v)
* `C142_overwrite_refuted` (P_EvalPruning.v)
* `C142_block_refuted` (P_EvalPruning.v)
* `C142_diff_refuted` (P_EvalPruning.v)
* `C143_update_state` (P_CoreTree2.v)
* `C143_get_params` (P_CoreTree2.v)
* `C143_encode` (P_CoreTree2.v)
* `C143_decode` (P_CoreTree2.v)
* `C143_encoded_is_complete` (P_CoreTree2.v)
* `C143_decode_before_sum` (P_CoreTree2.v)
* `C143_decode_after_sum` (P_CoreTree2.v)
* `C143_part_is_complete` (P_CoreTree2.v)

## Axioms: `Classical_Prop.classic`

* `C21_lookup_exact` (P_PruneModel.v)
* `C21_empty_iff_dead_end` (P_PruneModel.v)
* `C71_accepts_only_supported_partial` (P_PruneModel.v)
* `C71_rejects_only_with_cause` (P_PruneModel.v)

## Axioms: `ClassicalDedekindReals.sig_forall_dec`, `FunctionalExtensionality.functional_extensionality_dep`

* `C55_signs_partial` (P_Hadamard.v)
* `C56_parameters` (P_Hadamard.v)
* `C117_per_channel` (P_CommonEncoders.v)
* `C117_per_channel_prng` (P_CommonEncoders.v)
* `C117_seed_range` (P_CommonEncoders.v)
* `C118_clip_by_value` (P_CommonEncoders.v)
* `C118_swapped_bounds_refuted` (P_CommonEncoders.v)

## Axioms: `ClassicalDedekindReals.sig_not_dec`, `ClassicalDedekindReals.sig_forall_dec`, `FunctionalExtensionality.functional_extensionality_dep`

* `C54_fwht_defined_iff` (P_Hadamard.v)
* `C54_fwht_involution` (P_Hadamard.v)
* `C54_stage_lossless` (P_Hadamard.v)
* `C54_encoded_width` (P_Hadamard.v)
* `C54_refused` (P_Hadamard.v)
* `C55_zero_sign_refuted` (P_Hadamard.v)
* `C56_kashin_lossless` (P_Hadamard.v)
* `C56_encoded_width` (P_Hadamard.v)
* `C72_hadamard_commutes` (P_Hadamard.v)
* `C72_kashin_commutes` (P_Hadamard.v)
* `C73_fwht_norm` (P_Hadamard.v)
* `C73_hadamard_stage_norm` (P_Hadamard.v)
* `C73_kashin_clipped_norm` (P_Hadamard.v)
* `C73_kashin_one_pass` (P_Hadamard.v)
* `C114_accepted` (P_CommonEncoders.v)
* `C114_round_trip` (P_CommonEncoders.v)
* `C114_payload` (P_CommonEncoders.v)
* `C115_any_tree` (P_CommonEncoders.v)
* `C115_uniform_sum` (P_CommonEncoders.v)
* `C116_round_trip` (P_CommonEncoders.v)
* `C118_declarations` (P_CommonEncoders.v)
* `C118_clip_by_norm` (P_CommonEncoders.v)
* `C118_negative_norm_refuted` (P_CommonEncoders.v)
* `C141_library_stages_qualify` (P_CommonFlat.v)
* `C141_what_waits_for_the_sum` (P_CommonFlat.v)
* `C141_no_call_fails` (P_CommonFlat.v)
* `C141_sums_decode_to_sums` (P_CommonFlat.v)
* `C141_ready_made` (P_CommonFlat.v)
* `C141_uniform_aggregate` (P_CommonFlat.v)
* `C141_uniform_error` (P_CommonFlat.v)
* `C141_hadamard_aggregate` (P_CommonFlat.v)
* `C141_simple_round_trip` (P_CommonFlat.v)
* `C141_simple_round_trip_hadamard` (P_CommonFlat.v)
* `C141_hadamard_rejects_empty` (P_CommonFlat.v)

## Axioms: `ClassicalDedekindReals.sig_not_dec`, `ClassicalDedekindReals.sig_forall_dec`, `FunctionalExtensionality.functional_extensionality_dep`, `Classical_Prop.classic`

* `C03_polynomial_decay` (P_Schedule.v)
* `C03_constant_value` (P_Schedule.v)
* `C04_refuted` (P_Schedule.v)
* `C04_number_iff_nonempty_interval` (P_Schedule.v)
* `C04_empty_interval` (P_Schedule.v)
* `C04_power_zero` (P_Schedule.v)
* `C04_negative_power_refuted` (P_Schedule.v)
* `C64_float` (P_CompSchedule.v)
* `C64_int` (P_CompSchedule.v)
* `C144_count_in_range_partial` (P_Float32.v)
* `C144_count_is` (P_Float32.v)
* `C144_count_exact` (P_Float32.v)
* `C144_count_antitone` (P_Float32.v)
* `C144_zero_keeps_all_partial` (P_Float32.v)
* `C144_update_ok_partial` (P_Float32.v)
* `C144_mask` (P_Float32.v)
* `C144_refuted` (P_Float32.v)
* `C145_accepted` (P_FloatSchedule.v)
* `C145_progress` (P_FloatSchedule.v)
* `C145_constant_partial` (P_FloatSchedule.v)
* `C145_cube` (P_FloatSchedule.v)
* `C145_refuted` (P_FloatSchedule.v)
* `C146_overflow_refuted` (P_FloatQuant.v)
* `C146_greatest_value_refuted` (P_FloatQuant.v)
* `C147_nearest_refuted` (P_FloatCluster.v)
* `C147_overflow_refuted` (P_FloatCluster.v)
* `C148_overflow_refuted` (P_FloatRange.v)
* `C148_stalls_refuted` (P_FloatRange.v)
* `C149_single` (P_FloatSum.v)
* `C149_order_refuted` (P_FloatSum.v)
* `C150_transform_partial` (P_FloatHadamard.v)
* `C150_exact_refuted` (P_FloatHadamard.v)

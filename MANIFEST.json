{
 "claims": [
  {
   "property": "C01",
   "status": "proved",
   "theorems": [
    "C01_constant_fires_exactly",
    "C01_polynomial_fires_exactly"
   ],
   "note": ""
  },
  {
   "property": "C02",
   "status": "proved",
   "theorems": [
    "C02_constant_accepts_iff",
    "C02_polynomial_accepts_iff",
    "C02_rejections_are_ValueError"
   ],
   "note": ""
  },
  {
   "property": "C03",
   "status": "proved",
   "theorems": [
    "C03_polynomial_decay",
    "C03_constant_value"
   ],
   "note": "Exact real arithmetic (Rpower), power > 0; float rounding not modelled."
  },
  {
   "property": "C04",
   "status": "partial",
   "theorems": [
    "C04_refuted",
    "C04_number_iff_nonempty_interval",
    "C04_empty_interval",
    "C04_power_zero",
    "C04_negative_power_refuted"
   ],
   "note": "REFUTED as stated: begin_step = end_step is accepted and yields NaN (0/0) on the only pruning step (C04_refuted), a negative power is accepted and has no finite value from end_step on. Exact boundary proved: for power > 0 a non-number occurs on a pruning step iff begin_step = end_step; complete values proved for the empty interval, power 0 and negative powers."
  },
  {
   "property": "C05",
   "status": "proved",
   "theorems": [
    "C05_mask_is_threshold_set",
    "C05_kept_larger_than_pruned",
    "C05_update_succeeds",
    "C05_elementwise_entry"
   ],
   "note": ""
  },
  {
   "property": "C06",
   "status": "proved",
   "theorems": [
    "C06_at_least_k_kept",
    "C06_exactly_k_kept_when_distinct",
    "C06_keep_count_is_a_function",
    "C06_zero_sparsity_keeps_all"
   ],
   "note": ""
  },
  {
   "property": "C07",
   "status": "partial",
   "theorems": [
    "C07_refuted"
   ],
   "note": "REFUTED: ties at the threshold keep more weights (C07_refuted). The exact count for distinct magnitudes and the lower bound are C06."
  },
  {
   "property": "C08",
   "status": "partial",
   "theorems": [
    "C08_mask_constant_on_blocks",
    "C08_blocks_chosen_by_magnitude",
    "C08_rejected_iff_thin",
    "C08_refuted",
    "C08_blocks_need_matrices"
   ],
   "note": "Proved when both weight sides are multiples of the block sides; constancy on blocks and the rejection condition proved for all shapes. REFUTED otherwise: SAME pooling centres the padding while the mask is expanded from 0, so blocks are judged by shifted windows (C08_refuted)."
  },
  {
   "property": "C09",
   "status": "proved",
   "theorems": [
    "C09_expand_index_law",
    "C09_kronecker_index_law",
    "C09_expand_is_kronecker_with_ones",
    "C09_expand_rejects"
   ],
   "note": ""
  },
  {
   "property": "C10",
   "status": "proved",
   "theorems": [
    "C10_groups_keep_exactly_the_largest",
    "C10_entries_are_0_or_1",
    "C10_succeeds_for_m_lt_n_else_rejected",
    "C10_on_the_weight"
   ],
   "note": ""
  },
  {
   "property": "C11",
   "status": "proved",
   "theorems": [
    "C11_checker_accepts_pruned",
    "C11_checker_exact",
    "C11_checker_exact_channels_last"
   ],
   "note": ""
  },
  {
   "property": "C12",
   "status": "proved",
   "theorems": [
    "C12_rearrange_lossless",
    "C12_mask_lands_on_its_weight",
    "C12_other_ranks_rejected",
    "C12_ranks_2_and_4_accepted"
   ],
   "note": ""
  },
  {
   "property": "C13",
   "status": "proved",
   "theorems": [
    "C13_step_counts_batches",
    "C13_fresh_is_uniform"
   ],
   "note": "For models whose layers share one step (all freshly wrapped, or all saved at the same step), one replica."
  },
  {
   "property": "C14",
   "status": "partial",
   "theorems": [
    "C14_first_batch_without_callback_raises",
    "C14_never_raised_after_begin",
    "C14_refuted_second_batch_passes",
    "C14_refuted_raised_after_begin"
   ],
   "note": "REFUTED as stated: the assertion runs after the step was incremented, so a second training batch without the callback passes (C14_refuted_second_batch_passes), and after a failed batch on a 2-layer model the error is raised even though fit began with the callback (C14_refuted_raised_after_begin). Proved: the first such batch always raises; from a state with uniform steps the error never occurs after on_train_begin."
  },
  {
   "property": "C15",
   "status": "proved",
   "theorems": [
    "C15_masked_weights_are_zero",
    "C15_from_any_wellformed_state",
    "C15_every_epoch_end",
    "C15_weights_are_masked_old_weights",
    "C15_kept_weights_unchanged"
   ],
   "note": ""
  },
  {
   "property": "C16",
   "status": "proved",
   "theorems": [
    "C16_masks_change_only_when_due",
    "C16_due_batch_recomputes",
    "C16_frozen_after_last_due_step",
    "C16_constant_schedule_ends",
    "C16_polynomial_schedule_ends",
    "C16_m_by_n_first_step_only"
   ],
   "note": ""
  },
  {
   "property": "C17",
   "status": "partial",
   "theorems": [
    "C17_uniform_models_get_a_step",
    "C17_refuted_step_lost",
    "C17_refuted_step_missing"
   ],
   "note": "REFUTED for mixed models: on_train_begin only consults the first layer (C17_refuted_step_lost, C17_refuted_step_missing). Proved for models with uniform steps."
  },
  {
   "property": "C18",
   "status": "proved",
   "theorems": [
    "C18_strip_after_prune_is_identity",
    "C18_strip_removes_every_wrapper",
    "C18_strip_succeeds",
    "C18_pruning_is_invisible_to_strip",
    "C18_refusals_are_value_errors"
   ],
   "note": "clone_model of keras is modelled as a map over layers keeping the graph; object identity as record equality."
  },
  {
   "property": "C19",
   "status": "partial",
   "theorems": [
    "C19_wraps_exactly_the_allowed_layers",
    "C19_idempotent",
    "C19_idempotent_on_lists",
    "C19_fails_iff_some_layer_unsupported",
    "C19_wrappable_iff",
    "C19_refusals_are_value_errors",
    "C19_refuted_single_wrapped_layer",
    "C19_refuted_policy_ignored_on_lists"
   ],
   "note": "Proved for models and lists. REFUTED in two corners: a single already-wrapped layer is rejected (C19_refuted_single_wrapped_layer); a policy is silently ignored for lists/single layers (C19_refuted_policy_ignored_on_lists)."
  },
  {
   "property": "C20",
   "status": "partial",
   "theorems": [
    "C20_config_roundtrip_iff_no_m_by_n_partial",
    "C20_refuted"
   ],
   "note": "REFUTED: sparsity_m_by_n is not serialized (C20_refuted). Exact boundary proved: round trip is faithful iff it is None."
  },
  {
   "property": "C21",
   "status": "proved",
   "theorems": [
    "C21_lookup_exact",
    "C21_empty_iff_dead_end"
   ],
   "note": ""
  },
  {
   "property": "C22",
   "status": "proved",
   "theorems": [
    "C22_nearest",
    "C22_distinct",
    "C22_idempotent",
    "C22_history",
    "C22_history_indices",
    "C22_history_distinct"
   ],
   "note": "Exact rational arithmetic. Stated for weights > -1e6; at or below that the straight-through factor sign(w+1e6) is 0 or -1 (C26_forward_refuted)."
  },
  {
   "property": "C23",
   "status": "partial",
   "theorems": [
    "C23_per_slice",
    "C23_channels_last_partial",
    "C23_channels_first_refuted"
   ],
   "note": "REFUTED for data_format channels_first: Keras kernels are (h,w,in,out) for both formats, so axis 1 of the kernel is its width and not the output channel (C23_channels_first_refuted). Proved for channels_last; the per-slice claim is proved for both."
  },
  {
   "property": "C24",
   "status": "proved",
   "theorems": [
    "C24_sparsity_preserved"
   ],
   "note": "Arbitrary values after each training step for centroids, original weights and the other weights."
  },
  {
   "property": "C25",
   "status": "proved",
   "theorems": [
    "C25_sum",
    "C25_mean",
    "C25_total",
    "C25_per_channel"
   ],
   "note": "tape.gradient of the custom-gradient functions is the documented chain rule; the unsorted segment sum is modelled."
  },
  {
   "property": "C26",
   "status": "partial",
   "theorems": [
    "C26_gradients",
    "C26_forward_partial",
    "C26_forward_refuted"
   ],
   "note": "REFUTED for weights <= -1e6: the forward value is 0 or the negated centroid. Proved above -1e6."
  },
  {
   "property": "C27",
   "status": "proved",
   "theorems": [
    "C27_zero_centroid",
    "C27_never_fails",
    "C27_all_zero"
   ],
   "note": "kmeans++ op and the random generator are parameters constrained by sound_initialiser."
  },
  {
   "property": "C28",
   "status": "proved",
   "theorems": [
    "C28_linear",
    "C28_defined"
   ],
   "note": ""
  },
  {
   "property": "C29",
   "status": "partial",
   "theorems": [
    "C29_interpolation_refuted",
    "C29_grid_point_partial",
    "C29_sorted_in_range"
   ],
   "note": "REFUTED: solve_for_x is applied to y1 of the line, so every centroid but the last one is a grid point (C29_interpolation_refuted). The value and ordering are proved."
  },
  {
   "property": "C30",
   "status": "partial",
   "theorems": [
    "C30_restores_partial",
    "C30_order_refuted"
   ],
   "note": "REFUTED when the layer registers weights in another order than its weight list (C30_order_refuted). Proved when registered in order."
  },
  {
   "property": "C31",
   "status": "proved",
   "theorems": [
    "C31_plain",
    "C31_conv2d",
    "C31_conv2d_not_an_int",
    "C31_others"
   ],
   "note": ""
  },
  {
   "property": "C32",
   "status": "proved",
   "theorems": [
    "C32_enum_values",
    "C32_roundtrip",
    "C32_reachable"
   ],
   "note": ""
  },
  {
   "property": "C33",
   "status": "proved",
   "theorems": [
    "C33_fake_quant",
    "C33_zero_range",
    "C33_fixed_range"
   ],
   "note": ""
  },
  {
   "property": "C34",
   "status": "proved",
   "theorems": [
    "C34_zero_in_range",
    "C34_last_value_symmetric",
    "C34_all_values_symmetric",
    "C34_moving_average_symmetric"
   ],
   "note": ""
  },
  {
   "property": "C35",
   "status": "proved",
   "theorems": [
    "C35_all_values",
    "C35_last_value_forgets",
    "C35_last_value_range",
    "C35_moving_average",
    "C35_exp_average_hull"
   ],
   "note": ""
  },
  {
   "property": "C36",
   "status": "proved",
   "theorems": [
    "C36_inference_keeps_state",
    "C36_training_output"
   ],
   "note": ""
  },
  {
   "property": "C37",
   "status": "proved",
   "theorems": [
    "C37_independent",
    "C37_training",
    "C37_ranks"
   ],
   "note": ""
  },
  {
   "property": "C38",
   "status": "partial",
   "theorems": [
    "C38_levels_partial",
    "C38_levels_per_channel_partial",
    "C38_fixed_quantizer_refuted"
   ],
   "note": "REFUTED for FixedQuantizer, which never passes num_bits to the op (17 values from a 4-bit quantizer); proved for every other class after any history."
  },
  {
   "property": "C39",
   "status": "partial",
   "theorems": [
    "C39_moving_average_per_axis_refuted",
    "C39_usable_partial"
   ],
   "note": "REFUTED: MovingAverageQuantizer(per_axis=True) builds scalar variables and fails on every call; proved for all other documented uses, for call histories of any length."
  },
  {
   "property": "C40",
   "status": "partial",
   "theorems": [
    "C40_round_trip_partial",
    "C40_equality_partial",
    "C40_default_8bit_round_trip_refuted",
    "C40_config_round_trip_partial",
    "C40_config_equality_partial",
    "C40_config_equality_refuted"
   ],
   "note": "REFUTED: (1) Default8BitConv*WeightsQuantizer.from_config(get_config()) raises TypeError, (2) Default8BitQuantizeConfig.__eq__ ignores activation_attrs and (3) equates ConvTranspose configs with plain ones. Proved for the base classes, plus an exact characterisation of the config equality."
  },
  {
   "property": "C41",
   "status": "partial",
   "theorems": [
    "C41_effective_weights",
    "C41_never_fails",
    "C41_trainable_v2",
    "C41_trainable_v1_partial",
    "C41_trainable_v1_refuted"
   ],
   "note": "Proved for all histories (weights, effective weights, no exceptions, V2 trainable list). REFUTED only for the legacy QuantizeWrapper between build and the first call, where quantized weights are listed twice."
  },
  {
   "property": "C42",
   "status": "proved",
   "theorems": [
    "C42_rejected",
    "C42_as_declared",
    "C42_activation_layer"
   ],
   "note": ""
  },
  {
   "property": "C43",
   "status": "proved",
   "theorems": [
    "C43_annotate",
    "C43_idempotent",
    "C43_nested",
    "C43_errors"
   ],
   "note": "SeparableConv etc. are ordinary layers here; Keras clone_model is modelled as a map over the non-input layers."
  },
  {
   "property": "C44",
   "status": "proved",
   "theorems": [
    "C44_annotated",
    "C44_not_annotated",
    "C44_names",
    "C44_nothing_else",
    "C44_unsupported",
    "C44_arguments",
    "C44_terminates",
    "C44_unsupported_error"
   ],
   "note": "Hypotheses: distinct layer names / well-formed graph (model_ok) and fresh generated names; both shown to hold of a literal model. SeparableConv layers, InputLayers and QuantizeLayers are excluded from the per-layer statements."
  },
  {
   "property": "C45",
   "status": "partial",
   "theorems": [
    "C45_user_config_refuted",
    "C45_output_refuted",
    "C45_user_config_partial"
   ],
   "note": "REFUTED: LayerReLUQuantize replaces any config by NoOpQuantizeConfig; ConcatTransform switches the output quantizers off. Proved when no ReLU/Activation (resp. Concatenate) is annotated or the class is not a ReLU feeder."
  },
  {
   "property": "C46",
   "status": "proved",
   "theorems": [
    "C46_match_sound",
    "C46_replace_effect",
    "C46_untouched",
    "C46_weights",
    "C46_no_dangling",
    "C46_replace_no_dangling",
    "C46_terminates",
    "C46_complete"
   ],
   "note": ""
  },
  {
   "property": "C47",
   "status": "partial",
   "theorems": [
    "C47_terminates_refuted",
    "C47_terminates_partial"
   ],
   "note": "REFUTED: a transform that replaces a layer by a renamed one that it matches again runs for ever. Proved (C47_terminates_partial) whenever the replacements only use the names of the matched layers or names from some finite list; C85_layout_terminates proves termination of the layout transforms of the library on every model."
  },
  {
   "property": "C48",
   "status": "partial",
   "theorems": [
    "C48_fix_range_refuted",
    "C48_sequential_partial",
    "C48_functional_partial",
    "C48_remove_range_partial",
    "C48_remove_functional_partial",
    "C48_sequential_refused"
   ],
   "note": "REFUTED: one-layer Sequential raises IndexError (the check reads layers[1] when len >= 1); a functional model whose input feeds an un-annotated layer raises TypeError. Exact effect proved otherwise."
  },
  {
   "property": "C49",
   "status": "proved",
   "theorems": [
    "C49_zeros",
    "C49_like_plain",
    "C49_never_fails"
   ],
   "note": ""
  },
  {
   "property": "C50",
   "status": "partial",
   "theorems": [
    "C50_dense",
    "C50_conv_channels",
    "C50_conv_whole",
    "C50_zeros",
    "C50_inference",
    "C50_never_fails",
    "C50_conv_whole_refuted",
    "C50_channels_first_fails",
    "C50_channels_first_refuted"
   ],
   "note": "Dense and channels_last Conv2D proved, for every history; refuted: a Conv2D whose channels have equally many values may get more values in the whole kernel (per-channel centroids); channels_first kernels cannot be built."
  },
  {
   "property": "C51",
   "status": "partial",
   "theorems": [
    "C51_refuted",
    "C51_exactly",
    "C51_zeros_partial"
   ],
   "note": "Refuted: the quantizer object is shared by all layers of a class, one layer without zeros switches the flag off for all. Exact condition proved."
  },
  {
   "property": "C52",
   "status": "proved",
   "theorems": [
    "C52_unpack_pack",
    "C52_packed_in_range",
    "C52_packed_size",
    "C52_stage_lossless",
    "C52_accepted_bits"
   ],
   "note": ""
  },
  {
   "property": "C53",
   "status": "proved",
   "theorems": [
    "C53_error_bound",
    "C53_codes_fit",
    "C53_accepted_iff",
    "C53_refused",
    "C53_kept"
   ],
   "note": ""
  },
  {
   "property": "C54",
   "status": "proved",
   "theorems": [
    "C54_fwht_defined_iff",
    "C54_fwht_involution",
    "C54_stage_lossless",
    "C54_shape_recorded",
    "C54_encoded_width",
    "C54_refused"
   ],
   "note": ""
  },
  {
   "property": "C55",
   "status": "partial",
   "theorems": [
    "C55_signs_partial",
    "C55_zero_sign_refuted"
   ],
   "note": "Refuted: a uniform draw of exactly 0.5 gives the sign 0 (C55_zero_sign_refuted), which loses the coordinate in the Hadamard stage; C55_signs_partial characterises all draws."
  },
  {
   "property": "C56",
   "status": "proved",
   "theorems": [
    "C56_kashin_lossless",
    "C56_parameters",
    "C56_encoded_width"
   ],
   "note": ""
  },
  {
   "property": "C57",
   "status": "proved",
   "theorems": [
    "C57_split_exact",
    "C57_difference_exact"
   ],
   "note": ""
  },
  {
   "property": "C58",
   "status": "proved",
   "theorems": [
    "C58_lossless_trees"
   ],
   "note": ""
  },
  {
   "property": "C59",
   "status": "proved",
   "theorems": [
    "C59_single_summand",
    "C59_sum_in_between"
   ],
   "note": ""
  },
  {
   "property": "C60",
   "status": "partial",
   "theorems": [
    "C60_gather_flag_refuted",
    "C60_flags_partial"
   ],
   "note": "REFUTED (C60_gather_flag_refuted): GatherEncoder.fully_commutes_with_sum sums the flags and is truthy as soon as the root commutes. C60_flags_partial gives the exact meaning and proves Encoder.fully_commutes_with_sum right."
  },
  {
   "property": "C61",
   "status": "proved",
   "theorems": [
    "C61_split_merge",
    "C61_merge_values",
    "C61_merge_rejects_conflicts",
    "C61_error_kinds",
    "C61_split_error"
   ],
   "note": ""
  },
  {
   "property": "C62",
   "status": "partial",
   "theorems": [
    "C62_repacked_at_own_key_partial",
    "C62_repacked_at_own_key_refuted"
   ],
   "note": "REFUTED for keys with characters below '/' (C62_..._refuted: 'a' and 'a-b' swap tensors); C62_..._partial proves it for all structures whose key characters collate above '/'."
  },
  {
   "property": "C63",
   "status": "proved",
   "theorems": [
    "C63_half_step"
   ],
   "note": ""
  },
  {
   "property": "C64",
   "status": "proved",
   "theorems": [
    "C64_float",
    "C64_int"
   ],
   "note": "Exact real arithmetic (Rpower) for float exponents and exact powers for integer exponents."
  },
  {
   "property": "C65",
   "status": "partial",
   "theorems": [
    "C65_kernel_and_bias_partial",
    "C65_without_bias_refuted",
    "C65_bias_only_refuted",
    "C65_other_layers_refuted",
    "C65_model_partial",
    "C65_model_refuted"
   ],
   "note": "REFUTED: _map_to_inference_weights indexes with an exhausted position, so a layer without bias raises IndexError, BiasOnly always raises ValueError and any other layer is accepted only with 0 or 2 weights. Proved for kernel+bias layers with kernel-compressing algorithms, after any training, and for whole SVD models."
  },
  {
   "property": "C66",
   "status": "partial",
   "theorems": [
    "C66_refuted",
    "C66_compressed_layers_partial"
   ],
   "note": "REFUTED: layers without compressible weights are rebuilt from their config and lose their trained weights. Proved: the other weights of compressed layers are kept."
  },
  {
   "property": "C67",
   "status": "proved",
   "theorems": [
    "C67_rank",
    "C67_history"
   ],
   "note": "svd is a parameter constrained by its documented shapes."
  },
  {
   "property": "C68",
   "status": "partial",
   "theorems": [
    "C68_returns",
    "C68_observed_refuted",
    "C68_avoids",
    "C68_unique",
    "C68_zero_based_partial",
    "C68_zero_based_refuted",
    "C68_sequence",
    "C68_independent"
   ],
   "note": "REFUTED in two corners: avoid_observed_names=True always raises NameError (OBSERVED_NAMES is not defined), and zero-based requests can repeat a name ('dense' twice then 'dense_1', or a one-based before a zero-based request). Proved: one-based names never repeat within (map, namespace) for any program; zero-based collisions need one requested name to be another plus _N; avoid_names always respected; the loop terminates."
  },
  {
   "property": "C69",
   "status": "partial",
   "theorems": [
    "C69_transparent",
    "C69_history",
    "C69_interrupt_refuted",
    "C69_names"
   ],
   "note": "REFUTED only for non-Exception BaseExceptions (KeyboardInterrupt), which record nothing. Setting a gauge cell is assumed not to raise."
  },
  {
   "property": "C70",
   "status": "proved",
   "theorems": [
    "C70_constant_roundtrip",
    "C70_polynomial_roundtrip"
   ],
   "note": ""
  },
  {
   "property": "C71",
   "status": "partial",
   "theorems": [
    "C71_accepts_only_supported_partial",
    "C71_rejects_only_with_cause",
    "C71_refuted"
   ],
   "note": "REFUTED: an early return on a consumer-less layer skips the remaining checks, depending on set.pop order (C71_refuted). Proved: acceptance implies all the claimed facts or the existence of such a dead end."
  },
  {
   "property": "C72",
   "status": "proved",
   "theorems": [
    "C72_hadamard_commutes",
    "C72_kashin_commutes",
    "C72_uniform_quantization_commutes"
   ],
   "note": ""
  },
  {
   "property": "C73",
   "status": "proved",
   "theorems": [
    "C73_fwht_norm",
    "C73_hadamard_stage_norm",
    "C73_kashin_clipped_norm",
    "C73_kashin_one_pass"
   ],
   "note": ""
  },
  {
   "property": "C74",
   "status": "proved",
   "theorems": [
    "C74_make",
    "C74_encode_total",
    "C74_key_errors"
   ],
   "note": ""
  },
  {
   "property": "C75",
   "status": "proved",
   "theorems": [
    "C75_conv_transpose"
   ],
   "note": ""
  },
  {
   "property": "C76",
   "status": "partial",
   "theorems": [
    "C76_freezing_refuted"
   ],
   "note": "REFUTED (C76_freezing_refuted gives the exact list): quantized weights (V1) or all weights (V2) stay in trainable_weights after trainable=False."
  },
  {
   "property": "C77",
   "status": "partial",
   "theorems": [
    "C77_zero_channel_refuted"
   ],
   "note": "REFUTED: an all-zero channel gets one centroid, the others number_of_clusters, and the ragged list cannot be converted to a tensor."
  },
  {
   "property": "C78",
   "status": "partial",
   "theorems": [
    "C78_no_bias_refuted",
    "C78_no_bias_channels_first_refuted",
    "C78_bias_partial"
   ],
   "note": "REFUTED for use_bias=False: the last trainable weight is the kernel, so channels_last layers are silently never clustered and channels_first raises IndexError. Proved with bias."
  },
  {
   "property": "C79",
   "status": "partial",
   "theorems": [
    "C79_scope_partial",
    "C79_scope_refuted"
   ],
   "note": "REFUTED for RNN and MultiHeadAttention wrappers: cluster_scope registers ClusterWeights only."
  },
  {
   "property": "C80",
   "status": "partial",
   "theorems": [
    "C80_mha_strip_refuted",
    "C80_mha_values"
   ],
   "note": "REFUTED: strip puts the clustered tensors into the sub-layers and never the variables back."
  },
  {
   "property": "C81",
   "status": "proved",
   "theorems": [
    "C81_only_kernels_and_embeddings",
    "C81_kernels_are_pruned",
    "C81_every_recurrent_cell_is_pruned",
    "C81_recurrent_layers_supported_iff"
   ],
   "note": ""
  },
  {
   "property": "C82",
   "status": "proved",
   "theorems": [
    "C82_collects_every_wrapper",
    "C82_collects_what_pruning_wrapped"
   ],
   "note": ""
  },
  {
   "property": "C83",
   "status": "partial",
   "theorems": [
    "C83_kernel_quantized_refuted",
    "C83_kernel_quantized_partial"
   ],
   "note": "REFUTED: Dense/Conv2D followed by an annotated ReLU gets NoOpQuantizeConfig, so its kernel is not quantized. Proved when no ReLU/Activation is annotated."
  },
  {
   "property": "C84",
   "status": "partial",
   "theorems": [
    "C84_input_order_refuted",
    "C84_input_order_partial"
   ],
   "note": "REFUTED: inputs are looked up in config order, so Concatenate([b, a]) becomes Concatenate([a, b]). Proved for un-annotated layers."
  },
  {
   "property": "C85",
   "status": "proved",
   "theorems": [
    "C85_layout_terminates"
   ],
   "note": ""
  },
  {
   "property": "C86",
   "status": "partial",
   "theorems": [
    "C86_patterns_refuted",
    "C86_patterns_partial"
   ],
   "note": "REFUTED: '^A|B$' anchors only the first and the last alternative. Exact characterization proved."
  },
  {
   "property": "C87",
   "status": "partial",
   "theorems": [
    "C87_no_quantization_inside_refuted",
    "C87_conv_partial"
   ],
   "note": "REFUTED for Dense: DenseBatchNormQuantize is listed before the variants with ReLU, so the BN output is fake-quantized. Proved for Conv2D / DepthwiseConv2D / Conv2DTranspose (C87_conv_partial): in every functional model with such a chain, under either scheme, the BN ends with the config that quantizes nothing and the convolution ends with its activation quantization suppressed."
  },
  {
   "property": "C88",
   "status": "partial",
   "theorems": [
    "C88_first_pass_partial",
    "C88_first_pass_refuted"
   ],
   "note": "Refuted for Conv2D with preserve_sparsity and a channel without zeros (its smallest value is zeroed); proved in all other cases."
  },
  {
   "property": "C89",
   "status": "partial",
   "theorems": [
    "C89_annotated_partial",
    "C89_only",
    "C89_otherwise_default",
    "C89_relu_refuted",
    "C89_concatenate_refuted",
    "C89_arguments"
   ],
   "note": "Refuted for layers feeding an annotated ReLU (NoOp config) or Concatenate (explicit default config); proved without these; uniqueness and agreement with the default scheme proved for all models."
  },
  {
   "property": "C90",
   "status": "partial",
   "theorems": [
    "C90_exactly",
    "C90_class_refuted",
    "C90_producer_refuted"
   ],
   "note": "Refuted: annotated trainable layers of other classes (RuntimeError), unsupported weightless producers (ValueError). These are the only causes (C90_exactly)."
  },
  {
   "property": "C91",
   "status": "partial",
   "theorems": [
    "C91_reload_refuted",
    "C91_reload_partial"
   ],
   "note": "Refuted: the mask is not a variable and is rebuilt from freshly initialised weights."
  },
  {
   "property": "C92",
   "status": "proved",
   "theorems": [
    "C92_different_svd",
    "C92_periodical_svd",
    "C92_same_svd",
    "C92_bias_only",
    "C92_weight_clustering"
   ],
   "note": "svd constrained by svd_shapes/svd_exact, for which an instance is given."
  },
  {
   "property": "C93",
   "status": "proved",
   "theorems": [
    "C93_distinct"
   ],
   "note": "kmeans++/random initialisers are constrained by sound_initialiser."
  },
  {
   "property": "C94",
   "status": "proved",
   "theorems": [
    "C94_svd",
    "C94_negative_rank",
    "C94_same_forward",
    "C94_kernel_and_bias"
   ],
   "note": ""
  },
  {
   "property": "C95",
   "status": "partial",
   "theorems": [
    "C95_refuted",
    "C95_other_algorithms_partial"
   ],
   "note": "REFUTED for the periodical SVD, whose project step assigns the kernel and the counter also in evaluation. Proved for the other algorithms."
  },
  {
   "property": "C96",
   "status": "partial",
   "theorems": [
    "C96_refuted",
    "C96_layer_order_partial"
   ],
   "note": "REFUTED (bias listed before kernel raises ValueError). Proved for the order of the layer's weights."
  },
  {
   "property": "C97",
   "status": "partial",
   "theorems": [
    "C97_elementwise",
    "C97_blocks",
    "C97_blocks_accepted",
    "C97_interval_refuted"
   ],
   "note": "Proved for every target >= 0. REFUTED on the documented interval's end and outside: target 1.0 leaves one weight, 1.5 is accepted, negative values fail inside TensorFlow (no validation)."
  },
  {
   "property": "C98",
   "status": "partial",
   "theorems": [
    "C98_distinct_names_partial",
    "C98_refuted"
   ],
   "note": "REFUTED when two masks have the same variable name (equal layer names in nested models): only the last is logged. Proved for distinct names."
  },
  {
   "property": "C99",
   "status": "partial",
   "theorems": [
    "C99_every_f_batches_partial",
    "C99_every_epoch_partial",
    "C99_steps_per_execution_refuted",
    "C99_layers_partial",
    "C99_nested_refuted"
   ],
   "note": "REFUTED with steps_per_execution >= 2 (AssertionError in the first epoch: the callback counts executions) and for clustered layers inside nested models. Proved for steps_per_execution=1, top-level layers. Keras' fit loop is modelled from its documented behaviour."
  },
  {
   "property": "C100",
   "status": "proved",
   "theorems": [
    "C100_sparsity",
    "C100_ignored",
    "C100_report",
    "C100_verdict"
   ],
   "note": "casefold modelled for ASCII names; the m-by-n verdict itself is C11."
  },
  {
   "property": "C101",
   "status": "partial",
   "theorems": [
    "C101_bits_refuted",
    "C101_dense_partial",
    "C101_later_partial",
    "C101_conv_partial",
    "C101_apply",
    "C101_supported"
   ],
   "note": "Refuted in general: __init__ writes the bit widths into the class-level _QuantizeInfo objects shared by all registries, so a registry made later changes earlier ones (C101_bits_refuted; exactly when for Dense: C101_dense_partial). Holds for the dedicated classes, when later registries ask for the same bits, and for everything quantize_apply attaches (C101_apply)."
  },
  {
   "property": "C102",
   "status": "partial",
   "theorems": [
    "C102_constructed",
    "C102_reload_refuted",
    "C102_switched_partial",
    "C102_switch_off"
   ],
   "note": "Refuted: the n-bit ConcatTransform only replaces get_output_quantizers on the instance, which serialization drops; the 8-bit one also sets quantize_output. Exact characterisation in C102_switched_partial; constructed objects round-trip exactly."
  },
  {
   "property": "C103",
   "status": "partial",
   "theorems": [
    "C103_registry_partial",
    "C103_gelu_refuted",
    "C103_layout_refuted"
   ],
   "note": "Registry level proved (all classes, all activations except gelu, which only the 8-bit scheme accepts); layout level refuted: a Concatenate fed by a model input."
  },
  {
   "property": "C104",
   "status": "partial",
   "theorems": [
    "C104_fixed_partial",
    "C104_again_refuted",
    "C104_others_partial"
   ],
   "note": "Refuted for FixedQuantizeConfig: from_config replaces config['config'] in its argument, the second load raises ValueError (C104_fixed_partial: exactly the first succeeds); all other configs load any number of times."
  },
  {
   "property": "C105",
   "status": "partial",
   "theorems": [
    "C105_per_axis_refuted",
    "C105_per_axis_partial"
   ],
   "note": "Refuted: ConcatTransform builds its own registry without disable_per_axis, so Conv2D feeding a Concatenate stays per-channel. Proved for every annotated layer if no Concatenate is annotated."
  },
  {
   "property": "C106",
   "status": "partial",
   "theorems": [
    "C106_declared_partial",
    "C106_learning_phase",
    "C106_positional",
    "C106_undeclared",
    "C106_lost_refuted"
   ],
   "note": "REFUTED: ClusterWeights.call takes training and never passes it on; the other wrappers look only at getfullargspec(...).args and drop the flag for layers that take it keyword-only or in **kwargs. Proved for ordinary parameters, with all other arguments, and that the flag never makes a call fail. The Keras __call__ machinery around call is not modelled."
  },
  {
   "property": "C107",
   "status": "partial",
   "theorems": [
    "C107_transparent_partial",
    "C107_accepted",
    "C107_keyword_only_refuted",
    "C107_refused"
   ],
   "note": "Proved as a bisimulation for programs whose calls pass training only to layers declaring it as a parameter; REFUTED for keyword-only training."
  },
  {
   "property": "C108",
   "status": "proved",
   "theorems": [
    "C108_identity",
    "C108_quantizes",
    "C108_accepted",
    "C108_config",
    "C108_refused"
   ],
   "note": "Exact arithmetic; the configuration claim uses C40 (base classes)."
  },
  {
   "property": "C109",
   "status": "partial",
   "theorems": [
    "C109_trainable_partial",
    "C109_freezing_refuted"
   ],
   "note": "REFUTED: the wrapper's own list (original weights and centroids) ignores the flag; before the first forward pass the clustered weights are listed twice. Exact lists proved for every history."
  },
  {
   "property": "C110",
   "status": "partial",
   "theorems": [
    "C110_restored_partial",
    "C110_cluster_rejected_refuted",
    "C110_cluster_kernel_refuted"
   ],
   "note": "Proved when the wrapped layer keeps tracking the same variables (pruning, annotation). REFUTED for clustering: the first forward pass replaces the kernel attribute by a tensor, so get_weights no longer contains it."
  },
  {
   "property": "C111",
   "status": "partial",
   "theorems": [
    "C111_strip_partial",
    "C111_subclassed_partial",
    "C111_removed",
    "C111_argument_refuted",
    "C111_depthwise_refuted",
    "C111_scope_refuted",
    "C111_nested_refuted",
    "C111_no_model_refuted",
    "C111_argument_error"
   ],
   "note": "Proved exactly for models with the usual names. REFUTED: the argument is stripped too (its layers are mutated); layers whose name contains 'depthwise' are skipped, variables are matched by substring; nested subclassed models raise ValueError, subclassed models without an attribute model AttributeError."
  },
  {
   "property": "C112",
   "status": "partial",
   "theorems": [
    "C112_inference_partial",
    "C112_training_refuted"
   ],
   "note": "Inference proved. REFUTED for training: the quantizer keeps the clustering variables, so further training passes restore the same kernel for ever."
  },
  {
   "property": "C113",
   "status": "partial",
   "theorems": [
    "C113_advance_partial",
    "C113_refuted",
    "C113_race_refuted",
    "C113_bounds_partial",
    "C113_attained",
    "C113_fails_iff",
    "C113_first_step_refuted",
    "C113_nested_refuted",
    "C113_given_partial",
    "C113_constructor",
    "C113_constructor_error"
   ],
   "note": "REFUTED: two unordered updates of the step race (advance of one or two), the assertion races with them (the first step may fail), nested wrappers always fail. Exact bounds proved for every schedule. Assumes TF1 graph-mode Keras layers, which collect updates."
  },
  {
   "property": "C114",
   "status": "proved",
   "theorems": [
    "C114_accepted",
    "C114_round_trip",
    "C114_payload"
   ],
   "note": "Real arithmetic (no float rounding); stages, bit packing and composition as modelled in M_CommonEncoders/M_Bitpack/M_Composer."
  },
  {
   "property": "C115",
   "status": "proved",
   "theorems": [
    "C115_any_tree",
    "C115_uniform_sum"
   ],
   "note": "First theorem for any tree; second computes the codes, the sum and the error bound."
  },
  {
   "property": "C116",
   "status": "proved",
   "theorems": [
    "C116_round_trip"
   ],
   "note": "Random signs drawn exactly at 1/2 (tf.sign gives 0) are excluded; see C54."
  },
  {
   "property": "C117",
   "status": "proved",
   "theorems": [
    "C117_accepted",
    "C117_per_channel",
    "C117_per_channel_prng",
    "C117_seed_range"
   ],
   "note": "random_floats is any function of the seed with values in [0,1)."
  },
  {
   "property": "C118",
   "status": "partial",
   "theorems": [
    "C118_clip_by_value",
    "C118_declarations",
    "C118_swapped_bounds_refuted",
    "C118_clip_by_norm",
    "C118_negative_norm_refuted"
   ],
   "note": "Projection proved for valid bounds. REFUTED: min > max and negative norms are accepted."
  },
  {
   "property": "C119",
   "status": "proved",
   "theorems": [
    "C119_dense",
    "C119_conv",
    "C119_start_dense",
    "C119_start_conv"
   ],
   "note": "exp, sqrt and the real FFT are operations with the contracts of S_Epr (positivity; inverse, shapes and error amplification of the FFT)."
  },
  {
   "property": "C120",
   "status": "partial",
   "theorems": [
    "C120_dense_partial",
    "C120_conv_partial",
    "C120_half_precision_refuted",
    "C120_large_refuted"
   ],
   "note": "Exact when float16 holds the logarithm of the step. REFUTED in general: otherwise every non-zero weight of the layer changes; a dimension >= 65536 is lost in the uint16 shape. The entropy coder is an operation with a decode(encode)=id contract."
  },
  {
   "property": "C121",
   "status": "partial",
   "theorems": [
    "C121_layer_partial",
    "C121_conv1d_refuted",
    "C121_without_bias_refuted",
    "C121_other_layers_refuted"
   ],
   "note": "Proved for Dense/Conv2D with bias and small dimensions. REFUTED: Conv1D models cannot be trained, layers without bias and other layers with one or more than two weights have no inference layer."
  },
  {
   "property": "C122",
   "status": "partial",
   "theorems": [
    "C122_attributes_partial",
    "C122_attributes_refuted",
    "C122_penalty",
    "C122_losses",
    "C122_no_parameters_refuted"
   ],
   "note": "Proved when no unreadable attribute directly follows one holding a weight. REFUTED: such an attribute is overwritten by the weight; a model without parameters divides by zero."
  },
  {
   "property": "C123",
   "status": "partial",
   "theorems": [
    "C123_separable2d_partial",
    "C123_separable1d_partial",
    "C123_causal",
    "C123_settings",
    "C123_settings_1d",
    "C123_dtype_refuted"
   ],
   "note": "Proved (partial: activations applied elementwise, exact arithmetic; valid and same padding, both data formats). REFUTED: dtype is not passed on, so under the default policy the new layers compute in float32 whatever the dtype of the original layer."
  },
  {
   "property": "C124",
   "status": "partial",
   "theorems": [
    "C124_gather_encoder_is_created",
    "C124_initial_state",
    "C124_get_params",
    "C124_encode",
    "C124_decode_before_sum",
    "C124_decode_after_sum",
    "C124_update_state",
    "C124_data_dependent_shapes_refuted"
   ],
   "note": "Proved for Encoders whose methods read dictionaries by key (by_key) and whose results keep a fixed structure (fixed_structure); keys must be slash-safe (no key continued in a sibling key by '/' or a character before it). REFUTED outside: data-dependent encoded shapes are rejected by decode_before_sum in eager execution. Name scopes and tf.function tracing are not modelled."
  },
  {
   "property": "C125",
   "status": "proved",
   "theorems": [
    "C125_modes_belong_to_their_tensors"
   ],
   "note": "Proved for Encoders whose modes are declared exactly for their update tensors."
  },
  {
   "property": "C126",
   "status": "proved",
   "theorems": [
    "C126_simple_encoder_is_created",
    "C126_round_trip"
   ],
   "note": "Proved under by_key and fixed_simple; tf.function signatures are not modelled beyond the input spec check."
  },
  {
   "property": "C127",
   "status": "proved",
   "theorems": [
    "C127_wrong_state_rejected",
    "C127_wrong_input_rejected",
    "C127_wrong_encoding_rejected",
    "C127_wrong_part_rejected",
    "C127_wrong_number_of_updates_rejected"
   ],
   "note": "Proved under the hypotheses of C124 (update tensors are only counted by the code, and by the theorem)."
  },
  {
   "property": "C128",
   "status": "partial",
   "theorems": [
    "C128_names_resolve",
    "C128_only_cell_matrices",
    "C128_every_cell",
    "C128_names_distinct",
    "C128_other_names",
    "C128_shared_cell_refuted"
   ],
   "note": "Proved for all library layers, also with shared cells; distinctness of names needs distinct cell objects (REFUTED otherwise)."
  },
  {
   "property": "C129",
   "status": "proved",
   "theorems": [
    "C129_forward"
   ],
   "note": "Proved for built Keras cells with variables of their own; per-channel clustering never applies to RNN layers (C31). Nearest-centroid holds for weights above -1000000 (C26)."
  },
  {
   "property": "C130",
   "status": "partial",
   "theorems": [
    "C130_stripped_partial",
    "C130_shared_cell_refuted"
   ],
   "note": "Proved when every cell object occurs once; REFUTED for a stack that runs one cell object twice (set_weights gets too few weights, ValueError). from_config is modelled as making a new cell for each occurrence."
  },
  {
   "property": "C131",
   "status": "partial",
   "theorems": [
    "C131_keras_layers_build_partial",
    "C131_refused",
    "C131_bidirectional_stack_refuted",
    "C131_bidirectional_custom_refuted",
    "C131_nested_stack_refuted",
    "C131_cell_layer_refuted",
    "C131_user_rnn_refuted"
   ],
   "note": "Proved for Keras layers (linear initialisation, non-empty weights); C131_refused: exactly which RNN layers are refused at once. REFUTED: Bidirectional over stacked or custom cells, nested stacks, cells used as layers, and user ClusterableLayer subclasses of RNN are accepted and fail in build with AttributeError, ValueError, KeyError or IndexError."
  },
  {
   "property": "C132",
   "status": "partial",
   "theorems": [
    "C132_forward_partial",
    "C132_extra_list_refuted",
    "C132_missing_list_refuted",
    "C132_atomic_refuted",
    "C132_bidirectional_refuted"
   ],
   "note": "First part proved for every layer with one list per cell. REFUTED second part: with more lists than cells every forward pass raises, with fewer the last cells are silently left unquantized, a wrong shape raises after earlier attributes were replaced, and Bidirectional layers (no cell attribute) raise AttributeError."
  },
  {
   "property": "C133",
   "status": "partial",
   "theorems": [
    "C133_floats",
    "C133_float32_partial",
    "C133_float32_refuted",
    "C133_signs_partial",
    "C133_signs_refuted",
    "C133_prefix",
    "C133_prefix_refuted",
    "C133_seed_collision_refuted",
    "C133_bits_reused_refuted",
    "C133_refused"
   ],
   "note": "Termination, count, range [0,1) in float64, refusal and the prefix property (for counts that use the same number of parallel sequences) are proved for all seeds and counts. Refuted (exact seeds): float32 values are < 1 (a seed whose first value rounds to 1.0); signs are never 0; 100- and 101-element requests share a prefix; distinct seeds give distinct sequences (all multiples of 2048 coincide); values are independent (for every seed the leading 21 bits of the third value are the trailing 21 bits of the second plus d, |d| <= 1024). math.sqrt is taken without rounding."
  },
  {
   "property": "C134",
   "status": "proved",
   "theorems": [
    "C134_accepted",
    "C134_refused"
   ],
   "note": "Proved. On a refusal the model does not describe the layer left behind: as in C132, attributes before the offending one have already been replaced."
  },
  {
   "property": "C135",
   "status": "partial",
   "theorems": [
    "C135_takes_effect_partial",
    "C135_no_change",
    "C135_shared_names_refuted"
   ],
   "note": "Proved for differences in layers, connections, weights by name and metadata (compared by the configs' own equality). REFUTED for names_and_weights, which LayerNode.__eq__ does not compare: a replacement that changes only the weights of a layer two of whose weights share a name is dropped."
  },
  {
   "property": "C136",
   "status": "partial",
   "theorems": [
    "C136_match_connected_partial",
    "C136_inputs_refused"
   ],
   "note": "Proved: the inputs of a matched layer are exactly the layers its first call is connected to (functional) or the preceding layer (Sequential). REFUTED for operand order: the inputs are listed in the order of the model configuration, so a pattern on an ordered operation matches the swapped operands and a replacement that keeps its inputs swaps them (dense - conv becomes conv - dense); an operand used twice is kept once. The code has a TODO on the order."
  },
  {
   "property": "C137",
   "status": "proved",
   "theorems": [
    "C137_conv_bn",
    "C137_conv_reshape_bn",
    "C137_conv_bn_relu",
    "C137_conv_reshape_bn_relu",
    "C137_layer_relu",
    "C137_concat",
    "C137_input",
    "C137_sepconv",
    "C137_sepconv1d",
    "C137_sepconv_refused",
    "C137_change_seen"
   ],
   "note": "Exact result of every default transform on every match, stated on layer, configuration, weights and metadata. A transform that gives up on a Concatenate still switches off the QuantizeLayers it has already passed (stated as fed_kept)."
  },
  {
   "property": "C138",
   "status": "proved",
   "theorems": [
    "C138_registry",
    "C138_activation",
    "C138_wrappers"
   ],
   "note": "Exact table for every class and scheme; and for every wrapper of every quantized model (Activation layers stated separately because their output quantizer depends on the activation function)."
  },
  {
   "property": "C139",
   "status": "proved",
   "theorems": [
    "C139_created",
    "C139_every_call_succeeds",
    "C139_simple_round_trip",
    "C139_modes"
   ],
   "note": "Proved by induction over the tree from the stage contract of S_CoreTree (stage_by_key, stage_fixed); eager execution, static shapes."
  },
  {
   "property": "C140",
   "status": "proved",
   "theorems": [
    "C140_sum_of_clients",
    "C140_one_client_is_simple_encoder"
   ],
   "note": "All on flat values; the nested dictionaries occur only in the proof. Uses C139."
  },
  {
   "property": "C141",
   "status": "proved",
   "theorems": [
    "C141_library_stages_qualify",
    "C141_what_waits_for_the_sum",
    "C141_no_call_fails",
    "C141_sums_decode_to_sums",
    "C141_ready_made",
    "C141_uniform_aggregate",
    "C141_uniform_error",
    "C141_hadamard_aggregate",
    "C141_simple_round_trip",
    "C141_simple_round_trip_hadamard",
    "C141_hadamard_rejects_empty"
   ],
   "note": "Library stages are proved to meet the stage contract of C139/C140 (none is assumed); the numeric bounds come from a refinement of the nested-dictionary encoder (M_CoreTree) to the typed one (M_Encoder) along chains. Float tensors; exact real arithmetic; random streams are arbitrary functions into [0,1)."
  },
  {
   "property": "C142",
   "status": "partial",
   "theorems": [
    "C142_flag",
    "C142_flag_total",
    "C142_names",
    "C142_names_refuted",
    "C142_refused",
    "C142_success",
    "C142_failures",
    "C142_overwrite_refuted",
    "C142_block_refuted",
    "C142_diff_refuted"
   ],
   "note": "load_model, the TFLite converter and the archive size are arbitrary functions (any may raise); directories and disk errors are not modelled; NaN sparsity is outside the rationals. Several sub-claims of the English property are refuted by theorems (code bugs)."
  },
  {
   "property": "C143",
   "status": "proved",
   "theorems": [
    "C143_update_state",
    "C143_get_params",
    "C143_encode",
    "C143_decode",
    "C143_encoded_is_complete",
    "C143_decode_before_sum",
    "C143_decode_after_sum",
    "C143_part_is_complete"
   ],
   "note": "Trees as made by EncoderComposer (child keys of a stage distinct); eager execution; name scopes left out. complete says every child finds a value under its key, which C143_encoded_is_complete shows of everything encode makes."
  },
  {
   "property": "C144",
   "status": "partial",
   "theorems": [
    "C144_count_in_range_partial",
    "C144_count_is",
    "C144_count_exact",
    "C144_count_antitone",
    "C144_zero_keeps_all_partial",
    "C144_update_ok_partial",
    "C144_mask",
    "C144_refuted"
   ],
   "note": "Float arithmetic from Flocq (binary32, round to nearest even); kernels that flush subnormals to zero are not modelled. C144_refuted: tensors with 2^24 < n < 2^25, n = 3 mod 4 entries at sparsity 0 ask for n+1 weights, so tf.gather fails (CPU)."
  },
  {
   "property": "C145",
   "status": "partial",
   "theorems": [
    "C145_accepted",
    "C145_progress",
    "C145_constant_partial",
    "C145_cube",
    "C145_refuted"
   ],
   "note": "tf.math.pow is a parameter with a contract (monotone on [0,1], keeps 0 and 1), which the float32 cube is shown to meet. C145_refuted: an accepted sparsity above 1-2^-25 becomes the float32 1.0."
  },
  {
   "property": "C146",
   "status": "partial",
   "theorems": [
    "C146_overflow_refuted",
    "C146_greatest_value_refuted"
   ],
   "note": "Finite float32 inputs; num_summands None. C146_overflow_refuted: a range wider than the greatest float32 encodes its maximum as NaN. C146_greatest_value_refuted: the maximum need not be reproduced exactly in float32."
  },
  {
   "property": "C147",
   "status": "partial",
   "theorems": [
    "C147_nearest_refuted",
    "C147_overflow_refuted"
   ],
   "note": "Finite float32 inputs, one vector of centroids. C147_nearest_refuted: distances equal after rounding. C147_overflow_refuted: distances beyond the greatest float32 are all infinity and the first centroid wins."
  },
  {
   "property": "C148",
   "status": "partial",
   "theorems": [
    "C148_overflow_refuted",
    "C148_stalls_refuted"
   ],
   "note": "Finite float32 inputs, one range per tensor. C148_overflow_refuted: symmetric range of a tensor near the greatest float32 has an infinite limit. C148_stalls_refuted: the moving average stops moving within rounding of a thousandth of its distance to the batch limit."
  },
  {
   "property": "C149",
   "status": "partial",
   "theorems": [
    "C149_single",
    "C149_order_refuted"
   ],
   "note": "Given range (the case that commutes with sums), finite moderate values. C149_order_refuted: 259 clients with 16 bits, the sum of the codes differs with the order of the additions. Sums by tf.add or tf.reduce_sum are any tree of float32 additions."
  },
  {
   "property": "C150",
   "status": "partial",
   "theorems": [
    "C150_transform_partial",
    "C150_exact_refuted"
   ],
   "note": "One vector (rows of a batch are transformed independently). Lengths up to 2^24, values of magnitude at most 2^60, draws other than exactly 1/2 (C55). The products of tf.matmul with [[1,1],[1,-1]] are exact and each sum of two is rounded once. C150_exact_refuted: [1, 2^-25] decodes to [1, 0]."
  }
 ]
}
{
 "claims": [
  {
   "property": "C01",
   "status": "proved",
   "theorems": [
    "C01_output_on_grid",
    "C01_grid_is_reached"
   ],
   "note": ""
  },
  {
   "property": "C02",
   "status": "proved",
   "theorems": [
    "C02_idempotent",
    "C02_requantize_wider"
   ],
   "note": ""
  },
  {
   "property": "C03",
   "status": "proved",
   "theorems": [
    "C03_nearest",
    "C03_half_step",
    "C03_ties_to_even",
    "C03_floor",
    "C03_ceil",
    "C03_toward_zero"
   ],
   "note": ""
  },
  {
   "property": "C04",
   "status": "proved",
   "theorems": [
    "C04_monotone"
   ],
   "note": ""
  },
  {
   "property": "C05",
   "status": "proved",
   "theorems": [
    "C05_round_half_even",
    "C05_round_to_zero",
    "C05_dpu",
    "C05_binary_sign",
    "C05_all_modes"
   ],
   "note": ""
  },
  {
   "property": "C06",
   "status": "proved",
   "theorems": [
    "C06_range_shape",
    "C06_symmetric_iff",
    "C06_strictly_grows"
   ],
   "note": ""
  },
  {
   "property": "C07",
   "status": "proved",
   "theorems": [
    "C07_zero_exact",
    "C07_zero_point_must_be_in_range"
   ],
   "note": ""
  },
  {
   "property": "C08",
   "status": "proved",
   "theorems": [
    "C08_odd_on_symmetric_range",
    "C08_full_range_refuted"
   ],
   "note": "Oddness proved for symmetric (signed narrow) ranges with odd rounding modes; full-range counterexample refuted."
  },
  {
   "property": "C09",
   "status": "proved",
   "theorems": [
    "C09_clamp_projection",
    "C09_inplace_agrees",
    "C09_inverted_bounds",
    "C09_monotone"
   ],
   "note": ""
  },
  {
   "property": "C10",
   "status": "proved",
   "theorems": [
    "C10_narrow_never_clips",
    "C10_full_error_le_scale",
    "C10_full_range_clips_positive_extremum"
   ],
   "note": "Narrow signed range: no clipping, error <= s/2. Full range: error <= s, attained at the positive extremum (finding)."
  },
  {
   "property": "C11",
   "status": "proved",
   "theorems": [
    "C11_asymmetric_covers",
    "C11_all_negative_refuted"
   ],
   "note": "Holds when the tensor has a non-negative element; refuted for all-negative tensors (finding)."
  },
  {
   "property": "C12",
   "status": "proved",
   "theorems": [
    "C12_power_of_two",
    "C12_fixes_powers_of_two",
    "C12_min_val_refuted",
    "C12_min_val_lower_bound"
   ],
   "note": "Holds without scaling_min_val; with the default 1e-10 minimum the scale of a tiny tensor is not a power of two (finding)."
  },
  {
   "property": "C13",
   "status": "proved",
   "theorems": [
    "C13_binary",
    "C13_clamped_binary_same_levels",
    "C13_ternary",
    "C13_binary_idempotent",
    "C13_ternary_idempotent",
    "C13_ternary_threshold_one_refuted"
   ],
   "note": "Ternary idempotence needs threshold < 1 (refuted at 1)."
  },
  {
   "property": "C14",
   "status": "proved",
   "theorems": [
    "C14_learned_bit_width_at_least_min",
    "C14_initial_bit_width",
    "C14_init_errors",
    "C14_load_constant",
    "C14_removal_within_bounds",
    "C14_removal_monotone_refuted"
   ],
   "note": "Integer restriction with every rounding mode; loading and removal findings included."
  },
  {
   "property": "C15",
   "status": "proved",
   "theorems": [
    "C15_product_fits",
    "C15_product_rejects_zero_points",
    "C15_quotient_in_range"
   ],
   "note": "Product and quotient; per-tensor scales, equal shapes."
  },
  {
   "property": "C16",
   "status": "proved",
   "theorems": [
    "C16_sum_fits",
    "C16_mixed_sign_refuted",
    "C16_one_bit_refuted",
    "C16_tiny_scales_refuted",
    "C16_add_constant"
   ],
   "note": "Positive part for equal signedness and >= 2 bits; three refutations."
  },
  {
   "property": "C17",
   "status": "proved",
   "theorems": [
    "C17_negation",
    "C17_absolute_value",
    "C17_most_negative_refuted",
    "C17_zero_point_refuted",
    "C17_zero_point_abs_refuted",
    "C17_subtraction_fits",
    "C17_mixed_subtraction_refuted"
   ],
   "note": "Guarded positive part, subtraction, refutations for the excluded cases."
  },
  {
   "property": "C18",
   "status": "proved",
   "theorems": [
    "C18_int_view_round_trips",
    "C18_int_view_sound",
    "C18_invalid_raises",
    "C18_unsigned_32_refuted",
    "C18_one_bit_refuted"
   ],
   "note": "2..32 bits signed, 2..31 unsigned; refuted for unsigned 32 and one-bit tensors."
  },
  {
   "property": "C19",
   "status": "proved",
   "theorems": [
    "C19_cat_equal_metadata",
    "C19_cat_success_implies_close",
    "C19_cat_rejects_mismatch",
    "C19_tiny_scales_refuted",
    "C19_training_refuted"
   ],
   "note": "Evaluation mode; tolerance and training-mode refutations."
  },
  {
   "property": "C20",
   "status": "proved",
   "theorems": [
    "C20_signed_signed",
    "C20_narrow_weights",
    "C20_unsigned_unsigned",
    "C20_one_more_bit_suffices",
    "C20_linear_layer",
    "C20_conv_layer",
    "C20_unsigned_full_range_refuted",
    "C20_one_bit_refuted",
    "C20_conv_transpose_refuted",
    "C20_bias_bit"
   ],
   "note": "Dense sums for the listed sign/range combinations, +1 bit suffices in general; refuted for unsigned x full-range signed, 1x1 bit, and transposed convolutions (output-channel count used)."
  },
  {
   "property": "C21",
   "status": "proved",
   "theorems": [
    "C21_a2q_no_overflow",
    "C21_a2q_defined",
    "C21_zero_channel_refuted",
    "C21_round_to_nearest_refuted"
   ],
   "note": "All inputs, all accumulation orders and prefixes; all-zero channel is undefined (finding); round-to-nearest would overflow."
  },
  {
   "property": "C22",
   "status": "proved",
   "theorems": [
    "C22_a2q_plus_no_overflow"
   ],
   "note": "All inputs (signed and unsigned), all accumulation orders and prefixes."
  },
  {
   "property": "C23",
   "status": "proved",
   "theorems": [
    "C23_no_bias",
    "C23_quantized_bias",
    "C23_float_bias",
    "C23_zero_points_give_plain_output",
    "C23_signed_bias_refuted",
    "C23_integer_equivalence_end_to_end"
   ],
   "note": "Linear layers with per-channel weight scales; integer, float and missing bias; end-to-end statement for narrow-range weights; sign of the bias is ignored (finding)."
  },
  {
   "property": "C24",
   "status": "proved",
   "theorems": [
    "C24_running_average",
    "C24_outputs",
    "C24_average_bounded",
    "C24_resume_refuted"
   ],
   "note": "All interleavings of training and evaluation calls; resuming from a checkpoint multiplies the average (finding)."
  },
  {
   "property": "C25",
   "status": "proved",
   "theorems": [
    "C25_collection_phase",
    "C25_collection_outputs",
    "C25_conversion",
    "C25_learned_phase",
    "C25_evaluation_is_pure",
    "C25_no_jump_at_conversion",
    "C25_weight_decay_refuted",
    "C25_local_loss_refuted",
    "C25_power_of_two_not_applied_while_collecting_refuted",
    "C25_zero_point_lifecycle",
    "C25_parameter_statistics_used_once"
   ],
   "note": "All event traces for scale and zero point; weight decay, local-loss and power-of-two findings."
  },
  {
   "property": "C26",
   "status": "proved",
   "theorems": [
    "C26_save_load_preserves_evaluation",
    "C26_loaded_module_is_learned",
    "C26_zero_point_save_load",
    "C26_parameter_scaling_save_load",
    "C26_full_state_dict_refuted"
   ],
   "note": "All reachable states with positive statistics; full-state-dict finding."
  },
  {
   "property": "C27",
   "status": "proved",
   "theorems": [
    "C27_delay_exactly_N_calls",
    "C27_binary_quant_delay",
    "C27_training_only_refuted"
   ],
   "note": "Every call counts, including evaluation-mode calls (finding)."
  },
  {
   "property": "C28",
   "status": "proved",
   "theorems": [
    "C28_representable",
    "C28_nearest",
    "C28_idempotent",
    "C28_twice",
    "C28_monotone",
    "C28_zero",
    "C28_nonsaturating_in_range",
    "C28_nonsaturating_overflow",
    "C28_unsigned_negative_overflow_refuted"
   ],
   "note": "Any scale > 0, any bias and widths >= 1, signed and unsigned; all modes for representability/idempotence, round-to-nearest for nearest/monotone; unsigned non-saturating -inf finding."
  },
  {
   "property": "C29",
   "status": "proved",
   "theorems": [
    "C29_largest_free",
    "C29_defined",
    "C29_limit_usable",
    "C29_max_float",
    "C29_smallest"
   ],
   "note": "All widths, biases and special-code sets; OCP values as examples; limit shown usable by the quantizer."
  },
  {
   "property": "C30",
   "status": "proved",
   "theorems": [
    "C30_weight_groups",
    "C30_activation_groups",
    "C30_padding_is_minimal",
    "C30_padding_kept_refuted",
    "C30_negative_dim_refuted"
   ],
   "note": "All shapes, group sizes, statistics and element quantizers; padding-kept and negative-dimension findings."
  },
  {
   "property": "C31",
   "status": "proved",
   "theorems": [
    "C31_last_dim_block_size",
    "C31_square_size_ok",
    "C31_group_size_refuted"
   ],
   "note": "Refuted as stated; the actual block size M/g is proved for all shapes."
  },
  {
   "property": "C32",
   "status": "proved",
   "theorems": [
    "C32_export_equals_fake_quant",
    "C32_symmetric",
    "C32_within_one_step",
    "C32_odd_zero_point_tie_refuted",
    "C32_negative_zero_point_rejected",
    "C32_clip_omitted_only_if_enforced",
    "C32_unsupported_rejected",
    "C32_other_rounding_rejected"
   ],
   "note": "Torch and ONNX targets; equal for even zero points and off half-way inputs, one step otherwise; odd-zero-point tie and negative zero point findings."
  },
  {
   "property": "C33",
   "status": "proved",
   "theorems": [
    "C33_weights",
    "C33_bias",
    "C33_bias_other_scale"
   ],
   "note": "Weights stored as integers and biases de-quantized with the run-time scale."
  },
  {
   "property": "C34",
   "status": "proved",
   "theorems": [
    "C34_truncates_the_code",
    "C34_floor_is_right_shift",
    "C34_other_modes_at_most_one_over",
    "C34_round_overflow_refuted",
    "C34_zero_point_refuted",
    "C34_export_saturates",
    "C34_export_differs_refuted",
    "C34_export_zero_point_refuted"
   ],
   "note": "All codes, scales and widths; round overflow, zero point and export differences are findings."
  },
  {
   "property": "C35",
   "status": "proved",
   "theorems": [
    "C35_truncates_the_window_sum",
    "C35_sum_fits_unsigned",
    "C35_sum_fits_narrow_signed",
    "C35_signed_width_refuted",
    "C35_one_bit_width_refuted",
    "C35_output_fits",
    "C35_power_of_two_window_is_average",
    "C35_other_windows_are_rescaled_refuted",
    "C35_adaptive_divisible",
    "C35_adaptive_refuted"
   ],
   "note": "All windows, strides and inputs; signed and one-bit width, non-power-of-two window and adaptive findings."
  },
  {
   "property": "C36",
   "status": "proved",
   "theorems": [
    "C36_linear",
    "C36_conv",
    "C36_conv_transpose",
    "C36_chain",
    "C36_into_batch_norm",
    "C36_scale_bias",
    "C36_wrong_dim_refuted",
    "C36_shared_layer_refuted"
   ],
   "note": "Real arithmetic. Positive theorems per layer kind (1-d convolutions stand for the n-d ones), chain and BN-into-BN; refutations for a shared layer module and for the wrong channel dimension. Quantizers of the merged layer are not part of the statement."
  },
  {
   "property": "C37",
   "status": "proved",
   "theorems": [
    "C37_factor_positive",
    "C37_negligible_channel",
    "C37_ranges_equal",
    "C37_alpha_split",
    "C37_relu_hom",
    "C37_leaky_relu_hom",
    "C37_avg_pool_hom",
    "C37_max_pool_hom",
    "C37_gather_hom",
    "C37_mul_const_hom",
    "C37_equalize",
    "C37_walk_terminates",
    "C37_region_values",
    "C37_layerwise",
    "C37_added_constant_refuted",
    "C37_gated_residual_refuted",
    "C37_shared_module_refuted"
   ],
   "note": "Graphs without concatenation, no broadcasting additions, ranges without bias merging. Three refutations with the factors the code computes."
  },
  {
   "property": "C38",
   "status": "proved",
   "theorems": [
    "C38_region",
    "C38_pass",
    "C38_pass_maxabs",
    "C38_added_constant_refuted",
    "C38_shared_module_refuted"
   ],
   "note": "Regions are those the graph walk of C37 accepts.  Refutations: added constant, shared module."
  },
  {
   "property": "C39",
   "status": "proved",
   "theorems": [
    "C39_blocks",
    "C39_block_size_irrelevant",
    "C39_on_grid",
    "C39_fixed_point",
    "C39_hessian_scale",
    "C39_stats_scale_refuted"
   ],
   "note": "Per group; exact reals instead of float32.  The refutation covers statistics-scaled weight quantizers."
  },
  {
   "property": "C40",
   "status": "proved",
   "theorems": [
    "C40_hessian",
    "C40_order",
    "C40_split"
   ],
   "note": "Exact reals."
  },
  {
   "property": "C41",
   "status": "proved",
   "theorems": [
    "C41_values",
    "C41_outputs_kept",
    "C41_converges",
    "C41_listed_twice_refuted",
    "C41_shared_inner_refuted"
   ],
   "note": "Whole-pass theorem over arbitrary traced graphs (any rank, negative dims, shape errors); two refutations."
  },
  {
   "property": "C42",
   "status": "proved",
   "theorems": [
    "C42_default_eps",
    "C42_other_eps_refuted",
    "C42_training_flag_refuted"
   ],
   "note": "Any number of operands of any channel counts. Refutations: non-default epsilon; training flag."
  },
  {
   "property": "C43",
   "status": "proved",
   "theorems": [
    "C43_conv1d",
    "C43_conv2d",
    "C43_conv3d_partial",
    "C43_split",
    "C43_conv3d_refuted",
    "C43_conv3d_error_refuted",
    "C43_ceil",
    "C43_minimal"
   ],
   "note": "1-D and 2-D in full; 3-D proved outside the omitted-depth case, which is refuted."
  },
  {
   "property": "C44",
   "status": "proved",
   "theorems": [
    "C44_replacement_preserves",
    "C44_replaces_iff_divisible",
    "C44_without_test_refuted"
   ],
   "note": "Any number of dimensions, both stride conventions; iff-characterisation of when the pass replaces."
  },
  {
   "property": "C45",
   "status": "proved",
   "theorems": [
    "C45_outputs",
    "C45_mirror",
    "C45_rnn",
    "C45_lstm",
    "C45_no_state"
   ],
   "note": "Generic over the cell, with RNN and LSTM instances."
  },
  {
   "property": "C46",
   "status": "proved",
   "theorems": [
    "C46_bidirectional",
    "C46_single",
    "C46_unidirectional_refuted"
   ],
   "note": "Proved for bidirectional stacks and single layers; every multi-layer unidirectional stack with an explicit state raises."
  },
  {
   "property": "C47",
   "status": "proved",
   "theorems": [
    "C47_enabled_after",
    "C47_training_after",
    "C47_observer_after",
    "C47_no_more_stats",
    "C47_return_quant_tensor",
    "C47_inside",
    "C47_inside_truncation",
    "C47_inside_averages",
    "C47_disabled_refuted",
    "C47_not_enabled_refuted",
    "C47_steps_refuted"
   ],
   "note": "Modules form an arbitrary graph with sharing; the body is an arbitrary state change."
  },
  {
   "property": "C48",
   "status": "proved",
   "theorems": [
    "C48_mean",
    "C48_quant_bias",
    "C48_no_bias",
    "C48_batch_sizes_refuted",
    "C48_never_raises",
    "C48_channel_dim",
    "C48_channel_dim_refuted"
   ],
   "note": "Per channel; layer output = bias-free output + bias."
  },
  {
   "property": "C49",
   "status": "proved",
   "theorems": [
    "C49_forward_is_fresh",
    "C49_cache_content",
    "C49_cached_weight_is_stale_refuted"
   ],
   "note": "Freshness of forward and an exact characterisation of the cache content over all histories; the staleness of handlers prepared from a hand-enabled cache is C49_cached_weight_is_stale_refuted."
  },
  {
   "property": "C50",
   "status": "proved",
   "theorems": [
    "C50_prefix",
    "C50_postfix",
    "C50_second_noop",
    "C50_act_quant",
    "C50_collision_refuted"
   ],
   "note": ""
  },
  {
   "property": "C51",
   "status": "proved",
   "theorems": [
    "C51_gradient_in_range",
    "C51_gradient_above",
    "C51_gradient_below",
    "C51_input_gradient_mask",
    "C51_ste_clamp_gradient",
    "C51_gradient_is_surrogate_derivative",
    "C51_binary_gradient",
    "C51_clamped_binary_gradient",
    "C51_ternary_gradient",
    "C51_abs_gradient"
   ],
   "note": "Dual-number model of forward-mode differentiation, checked against Coquelicot derivatives of the surrogate."
  },
  {
   "property": "C52",
   "status": "proved",
   "theorems": [
    "C52_learned_round_training_hard",
    "C52_learned_round_training_sigmoid",
    "C52_learned_round_eval",
    "C52_eval_follows_training_hard",
    "C52_eval_follows_training_sigmoid",
    "C52_negative_temperature_refuted",
    "C52_integer_moves_refuted",
    "C52_stochastic_neighbours",
    "C52_stochastic_unbiased",
    "C52_module_stochastic",
    "C52_deterministic_inference"
   ],
   "note": "Unbiasedness as a Riemann integral over the draw."
  },
  {
   "property": "C53",
   "status": "proved",
   "theorems": [
    "C53_unsigned_requantizer_operands_nonneg",
    "C53_unsigned_requantizer_sum_nonneg",
    "C53_unsigned_operands_give_unsigned_requantizer",
    "C53_unknown_operand_gives_signed_requantizer",
    "C53_graph_input_quantizer_becomes_unsigned_refuted",
    "C53_placeholders_and_constants_ignored_refuted"
   ],
   "note": "Proved over the graph model of RequantGraph.v (input placeholder, activation, output quantizer and residual passes). The unconditional claim is refuted by two theorems."
  },
  {
   "property": "C54",
   "status": "proved",
   "theorems": [
    "C54_int_recovers_code",
    "C54_int_within_validity_tolerance",
    "C54_float_requantization_idempotent",
    "C54_float32_int_recovers_code",
    "C54_float16_int8_recovers_code",
    "C54_bfloat16_unsigned8_code_lost_refuted",
    "C54_bfloat16_int8_recovers_code",
    "C54_bfloat16_requantization_moves_refuted"
   ],
   "note": "Over Flocq's IEEE-754 binary floats (correctly rounded operations, ties to even), including overflow, infinities and NaN. The bfloat16 cases are refutations."
  },
  {
   "property": "C55",
   "status": "proved",
   "theorems": [
    "C55_int_handler",
    "C55_weight_handler",
    "C55_other_rounding_refuted",
    "C55_float_handler",
    "C55_reserved_codes_refuted",
    "C55_unscaled_masks_refuted"
   ],
   "note": "Integer and minifloat inference handlers; rounding mode, reserved codes and unscaled mask findings."
  },
  {
   "property": "C56",
   "status": "proved",
   "theorems": [
    "C56_average",
    "C56_between",
    "C56_list_sums_to_average",
    "C56_repeated_passes",
    "C56_batch_size_irrelevant",
    "C56_nothing_raises"
   ],
   "note": ""
  },
  {
   "property": "C57",
   "status": "proved",
   "theorems": [
    "C57_flags_restored",
    "C57_candidate_saved",
    "C57_grid_optimal",
    "C57_grid_no_worse_than_init",
    "C57_grid_nan_refuted",
    "C57_fib_in_bracket",
    "C57_fib_needs_two",
    "C57_fib_accuracy",
    "C57_fib_negative_init_refuted"
   ],
   "note": "C57_fib_accuracy assumes that no two cell boundaries have exactly equal loss."
  },
  {
   "property": "C58",
   "status": "proved",
   "theorems": [
    "C58_conv_equals_avg_pool",
    "C58_count_include_pad_refuted",
    "C58_ceil_mode_refuted"
   ],
   "note": "Any number of dimensions; count_include_pad and ceil_mode findings. Weight quantization of the inserted layer not included."
  },
  {
   "property": "C59",
   "status": "proved",
   "theorems": [
    "C59_step_optimal",
    "C59_total_error",
    "C59_meaning"
   ],
   "note": "The Cholesky factor enters through its defining equation U H U^T = I, U upper triangular with non-zero diagonal."
  },
  {
   "property": "C60",
   "status": "proved",
   "theorems": [
    "C60_dead_harmless",
    "C60_dead_zeroed",
    "C60_positive_definite"
   ],
   "note": "Exact reals."
  },
  {
   "property": "C61",
   "status": "proved",
   "theorems": [
    "C61_residual",
    "C61_target_optimal",
    "C61_grid_optimal",
    "C61_sample_ok",
    "C61_sample_refuted"
   ],
   "note": "Per group, exact reals."
  },
  {
   "property": "C62",
   "status": "proved",
   "theorems": [
    "C62_targets",
    "C62_gpfq_targets",
    "C62_equivalent",
    "C62_damping_shrinks"
   ],
   "note": "The symmetric square root and its inverse enter through their defining equations."
  },
  {
   "property": "C63",
   "status": "proved",
   "theorems": [
    "C63_written",
    "C63_transposed_lost",
    "C63_slice",
    "C63_transposed3d_refuted"
   ],
   "note": "Stride semantics of contiguous tensors, transpose and flatten as in PyTorch."
  },
  {
   "property": "C64",
   "status": "proved",
   "theorems": [
    "C64_lstm"
   ],
   "note": "One batch element, real arithmetic."
  },
  {
   "property": "C65",
   "status": "proved",
   "theorems": [
    "C65_rnn",
    "C65_lstm_partial",
    "C65_lstm_refuted",
    "C65_cifg_refuted"
   ],
   "note": "The LSTM input and forget gates are refuted."
  },
  {
   "property": "C66",
   "status": "proved",
   "theorems": [
    "C66_routing",
    "C66_own_checkpoint",
    "C66_eleven_layers_refuted",
    "C66_prefix_refuted"
   ],
   "note": ""
  },
  {
   "property": "C67",
   "status": "proved",
   "theorems": [
    "C67_rnn",
    "C67_lstm"
   ],
   "note": ""
  },
  {
   "property": "C68",
   "status": "proved",
   "theorems": [
    "C68_bounded"
   ],
   "note": "Cell-state quantizer taken as the identity."
  },
  {
   "property": "C69",
   "status": "proved",
   "theorems": [
    "C69_mean",
    "C69_var",
    "C69_var_refuted"
   ],
   "note": "Mean proved; variance refuted for every pair of different variances."
  },
  {
   "property": "C70",
   "status": "proved",
   "theorems": [
    "C70_clip"
   ],
   "note": ""
  },
  {
   "property": "C71",
   "status": "proved",
   "theorems": [
    "C71_inference_mode_is_faithful",
    "C71_training_session_raises",
    "C71_disabled_weight"
   ],
   "note": "Model with one weight and one activation proxy; agreement of handler and quantizer is a section hypothesis instantiated by C55 and by the concrete example."
  },
  {
   "property": "C72",
   "status": "proved",
   "theorems": [
    "C72_activation_scale_is_stale_refuted",
    "C72_weight_caching_stays_on_refuted",
    "C72_empty_session_refuted",
    "C72_training_after_empty_session_refuted",
    "C72_disabled_activation_refuted"
   ],
   "note": "Refuted: each failure is a C72_*_refuted theorem; the forward results that are preserved are C71."
  },
  {
   "property": "C73",
   "status": "proved",
   "theorems": [
    "C73_variants_agree",
    "C73_crossed_bounds_refuted"
   ],
   "note": "Crossed bounds refuted."
  },
  {
   "property": "C74",
   "status": "proved",
   "theorems": [
    "C74_minifloat_gradient_normal",
    "C74_minifloat_gradient_ratio",
    "C74_minifloat_gradient_subnormal",
    "C74_minifloat_gradient_saturated",
    "C74_minifloat_identity_gradient_refuted"
   ],
   "note": "Identity gradient refuted."
  },
  {
   "property": "C75",
   "status": "proved",
   "theorems": [
    "C75_initial_soft_weight",
    "C75_initial_hard_weight"
   ],
   "note": ""
  },
  {
   "property": "C76",
   "status": "proved",
   "theorems": [
    "C76_hqo_best_so_far",
    "C76_zero_point_update_exact",
    "C76_scale_update_exact",
    "C76_scale_update_shifted",
    "C76_scale_update_refuted",
    "C76_scale_repeatable",
    "C76_zero_point_repeatable_refuted"
   ],
   "note": "The two false parts are refuted."
  },
  {
   "property": "C77",
   "status": "proved",
   "theorems": [
    "C77_aligned_addition_operands_share_scale",
    "C77_aligned_concat_operands_share_metadata",
    "C77_residual_handler_result_aligned",
    "C77_quantize_aligns_additions_and_concats",
    "C77_mixed_bit_widths_refuted"
   ],
   "note": "Needs one bit width everywhere; the mixed case is refuted. reach_ok excludes operands that are reached through graph inputs or attributes."
  },
  {
   "property": "C78",
   "status": "proved",
   "theorems": [
    "C78_transpose_method_operand_never_aligns",
    "C78_shared_skip_operand_never_aligns"
   ],
   "note": "Negative results: both are findings about the alignment loop."
  },
  {
   "property": "C79",
   "status": "proved",
   "theorems": [
    "C79_quantize_keeps_float_function",
    "C79_quantize_result_well_formed"
   ],
   "note": "Module-name clashes with the generated <node>_quant names are excluded by the hypothesis 'traced'."
  },
  {
   "property": "C80",
   "status": "proved",
   "theorems": [
    "C80_float_code_in_range",
    "C80_float_code_monotone",
    "C80_int32_code_escapes_refuted"
   ],
   "note": "Over Flocq's IEEE-754 binary floats. The 32-bit bound is refuted."
  },
  {
   "property": "C81",
   "status": "proved",
   "theorems": [
    "C81_abs_percentile",
    "C81_abs_percentile_defined",
    "C81_zero_rank_refuted",
    "C81_hundred_is_max",
    "C81_monotone",
    "C81_negative_percentile",
    "C81_negative_percentile_defined",
    "C81_zeroth_percentile_refuted",
    "C81_per_slice",
    "C81_interval_per_slice",
    "C81_rank_in_range_double",
    "C81_rank_error_double",
    "C81_low_rank_off_by_one_refuted"
   ],
   "note": ""
  },
  {
   "property": "C82",
   "status": "proved",
   "theorems": [
    "C82_percentile_covers",
    "C82_all_negative_refuted"
   ],
   "note": ""
  },
  {
   "property": "C83",
   "status": "proved",
   "theorems": [
    "C83_channel_scale",
    "C83_channels_independent",
    "C83_tensor_scale",
    "C83_max_ave_scale",
    "C83_activation_channel_scale",
    "C83_channel_mismatch_raises",
    "C83_grouped_transposed_refuted"
   ],
   "note": ""
  },
  {
   "property": "C84",
   "status": "proved",
   "theorems": [
    "C84_sink_size",
    "C84_source_size",
    "C84_sink_scaling",
    "C84_source_scaling",
    "C84_equalize",
    "C84_lone_sink_skipped",
    "C84_channel_multiplier_refuted",
    "C84_depthwise_transposed_refuted",
    "C84_grouped_pair_refuted",
    "C84_depthwise_bias_refuted",
    "C84_source_range",
    "C84_sink_range",
    "C84_ranges_balanced"
   ],
   "note": "Positive theorems for the correct layouts; four refutations for the groupings that are mishandled. Bias merging is not modelled."
  },
  {
   "property": "C85",
   "status": "proved",
   "theorems": [
    "C85_maxabs_recorded",
    "C85_range_refuted",
    "C85_layerwise",
    "C85_layerwise_applies",
    "C85_unbatched_refuted",
    "C85_self_attention",
    "C85_distinct_attention",
    "C85_cross_attention_refuted",
    "C85_value_refuted",
    "C85_graph",
    "C85_never_ran_raises",
    "C85_range_of_batch"
   ],
   "note": "Exact arithmetic; four refutations."
  },
  {
   "property": "C86",
   "status": "proved",
   "theorems": [
    "C86_consistent_region",
    "C86_equalize_consistent",
    "C86_dropped_consumer_refuted",
    "C86_repeated_operand_refuted",
    "C86_added_operand_refuted",
    "C86_block_region",
    "C86_block_preserved",
    "C86_block_ranges",
    "C86_norms_not_sinks",
    "C86_added_branch_order_refuted"
   ],
   "note": "Positive theorems for blocks around one concatenation and for every consistent region; four refutations."
  },
  {
   "property": "C87",
   "status": "proved",
   "theorems": [
    "C87_same_axis",
    "C87_other_axis_refuted",
    "C87_activation_check",
    "C87_norm_axis_refuted"
   ],
   "note": "Two-dimensional activations (one sample); two refutations."
  },
  {
   "property": "C88",
   "status": "proved",
   "theorems": [
    "C88_duplicate_preserves",
    "C88_duplicate_unshares",
    "C88_duplicate_keeps_stateful",
    "C88_duplicate_clash_refuted",
    "C88_duplicate_method_refuted",
    "C88_functional_to_module",
    "C88_functional_clash_refuted",
    "C88_remove_stochastic",
    "C88_remove_stochastic_pass",
    "C88_remove_stochastic_refuted",
    "C88_disable_last",
    "C88_disable_last_nothing",
    "C88_disable_last_refuted",
    "C88_mean_pooled",
    "C88_mean_equals_pool",
    "C88_mean_keywords_refuted"
   ],
   "note": "Keyword arguments of nodes are modelled for mean only; six refutations."
  },
  {
   "property": "C89",
   "status": "proved",
   "theorems": [
    "C89_layerwise_quantize",
    "C89_tensors_kept",
    "C89_idempotent",
    "C89_two_names_refuted",
    "C89_untied_refuted",
    "C89_blacklist_refuted",
    "C89_root_layer_refuted",
    "C89_new_arguments",
    "C89_recurrent_bias_refuted",
    "C89_subclass_raises",
    "C89_shared_layer_raises",
    "C89_layers_replaced",
    "C89_flags_after",
    "C89_flags_refuted"
   ],
   "note": "Seven refutations outside the stated conditions. The inside of a new quantized layer is not represented."
  },
  {
   "property": "C90",
   "status": "proved",
   "theorems": [
    "C90_forward",
    "C90_unbatched",
    "C90_weights_sum",
    "C90_extra_key",
    "C90_masked_ignored",
    "C90_causal",
    "C90_padding",
    "C90_packed_separate",
    "C90_kdim_vdim_raises",
    "C90_packed_cross_raises",
    "C90_two_float_masks_raise",
    "C90_score_quant_leaks",
    "C90_pointer_only",
    "C90_same_pointer_refuted",
    "C90_float_padding",
    "C90_float_padding_refuted"
   ],
   "note": "Real arithmetic, quantizers as functions of one element. The three deviations are theorems (score_quant_leaks, same_pointer_refuted, float_padding_refuted)."
  },
  {
   "property": "C91",
   "status": "proved",
   "theorems": [
    "C91_load",
    "C91_own_checkpoint",
    "C91_uneven_raises",
    "C91_same_function",
    "C91_sibling_refuted",
    "C91_uneven_bias_refuted"
   ],
   "note": "Two refutations outside the stated conditions."
  },
  {
   "property": "C92",
   "status": "proved",
   "theorems": [
    "C92_sound",
    "C92_one_value",
    "C92_complete",
    "C92_built_once",
    "C92_restored",
    "C92_local",
    "C92_exception_refuted",
    "C92_twice_refuted"
   ],
   "note": "Specification is an inductive evaluation relation; completeness assumes the external loop and circle checks pass. Two refutations."
  },
  {
   "property": "C93",
   "status": "proved",
   "theorems": [
    "C93_depth_first",
    "C93_let",
    "C93_diamond_refuted",
    "C93_filter",
    "C93_layer",
    "C93_layer_succeeds",
    "C93_unknown_ignored",
    "C93_one_target",
    "C93_act_layer",
    "C93_rnn_gate_acc_refuted"
   ],
   "note": "Two refutations (diamond inheritance against the C3 order; QuantRNN keywords)."
  },
  {
   "property": "C94",
   "status": "proved",
   "theorems": [
    "C94_int",
    "C94_view",
    "C94_view_succeeds",
    "C94_flatten",
    "C94_transpose",
    "C94_permute",
    "C94_pixel_shuffle",
    "C94_pixel_unshuffle",
    "C94_embedding",
    "C94_embedding_raises",
    "C94_reshape_refuted",
    "C94_flatten_refuted",
    "C94_transpose_refuted",
    "C94_pixel_shuffle_refuted"
   ],
   "note": "Refutations for per-channel reshape, flatten, pixel_shuffle and lower-rank transposition."
  },
  {
   "property": "C95",
   "status": "proved",
   "theorems": [
    "C95_relu",
    "C95_hardtanh",
    "C95_relu6",
    "C95_dropout_eval",
    "C95_pad",
    "C95_max_pool",
    "C95_adaptive_max_pool",
    "C95_interpolate_nearest",
    "C95_interpolate_other",
    "C95_upsample",
    "C95_relu6_refuted",
    "C95_hardtanh_refuted",
    "C95_relu_refuted",
    "C95_dropout_refuted",
    "C95_pad_refuted",
    "C95_pad_channels_refuted",
    "C95_upsample_cubic_refuted",
    "C95_upsample_zero_point_refuted"
   ],
   "note": "max pooling: dilation 1 or no padding in each dimension (torch's windows may otherwise be empty). Eight refutations."
  },
  {
   "property": "C96",
   "status": "proved",
   "theorems": [
    "C96_enter",
    "C96_groups",
    "C96_hooks",
    "C96_sequential",
    "C96_float_reference",
    "C96_stored",
    "C96_output",
    "C96_hessian",
    "C96_interleaved_group_refuted",
    "C96_name_collision_refuted",
    "C96_leftover_hook_refuted",
    "C96_forward_restored_refuted"
   ],
   "note": "Four refutations: interleaved groups, name collision, leftover hooks, forward not restored after a failing entry."
  },
  {
   "property": "C97",
   "status": "proved",
   "theorems": [
    "C97_gptq_flags",
    "C97_gpfq_flags",
    "C97_gpfq_flags_lost",
    "C97_inside",
    "C97_float_pass",
    "C97_between_batches",
    "C97_gpfq_enabled",
    "C97_gptq_enabled",
    "C97_gpfq_eval",
    "C97_gpfq_restores_refuted",
    "C97_gpfq_training_refuted"
   ],
   "note": "Universal theorems for the flags lost and the evaluation mode, with concrete refutations."
  },
  {
   "property": "C98",
   "status": "proved",
   "theorems": [
    "C98_minifloat",
    "C98_quantizer",
    "C98_large_scale",
    "C98_neg",
    "C98_neg_unsigned",
    "C98_abs",
    "C98_abs_unsigned",
    "C98_sub",
    "C98_add",
    "C98_cat",
    "C98_cat_quantized",
    "C98_cat_checked",
    "C98_cat_no_inf",
    "C98_cat_plain",
    "C98_scale_refuted",
    "C98_neg_refuted",
    "C98_sub_refuted",
    "C98_cat_refuted",
    "C98_cat_special_refuted",
    "C98_passthrough",
    "C98_disabled",
    "C98_passthrough_refuted"
   ],
   "note": "Arithmetic of the scale and of the values is exact (rational); six refutations and the universal theorem C98_large_scale."
  },
  {
   "property": "C99",
   "status": "proved",
   "theorems": [
    "C99_nearest_even",
    "C99_convert_unique",
    "C99_export",
    "C99_ocp",
    "C99_fnuz",
    "C99_standard_exports",
    "C99_accepted",
    "C99_refused",
    "C99_weight",
    "C99_bias_refuted",
    "C99_nonsaturating_refuted",
    "C99_unsigned_refuted"
   ],
   "note": "The meaning of QuantizeLinear to float8 is an independent spec (nearest, ties to even code, saturate); three refutations."
  },
  {
   "property": "C100",
   "status": "proved",
   "theorems": [
    "C100_symmetric",
    "C100_asymmetric",
    "C100_symmetric_scale",
    "C100_asymmetric_scale",
    "C100_symmetric_min_val",
    "C100_asymmetric_min_val",
    "C100_float32_symmetric",
    "C100_float32_asymmetric",
    "C100_float16_overflow_refuted",
    "C100_float16_subnormal_refuted",
    "C100_float16_zero_weight_refuted",
    "C100_bfloat16_int8_refuted"
   ],
   "note": "IEEE arithmetic with Flocq; four refutations for float16 and bfloat16."
  },
  {
   "property": "C101",
   "status": "proved",
   "theorems": [
    "C101_node_determined",
    "C101_act_int",
    "C101_act_binary",
    "C101_act_ternary",
    "C101_act_rejected",
    "C101_weight",
    "C101_decoupled",
    "C101_bias",
    "C101_bias_needs_cache",
    "C101_trunc",
    "C101_one_bit_activation_refuted",
    "C101_one_bit_weight_refuted",
    "C101_rounding_conflict_refuted",
    "C101_bias_two_calls_refuted",
    "C101_attribute_case_refuted"
   ],
   "note": "Node semantics written independently (clip before round); five refutations."
  },
  {
   "property": "C102",
   "status": "proved",
   "theorems": [
    "C102_const",
    "C102_const_init",
    "C102_const_min_val_refuted",
    "C102_const_power_of_two",
    "C102_power_of_two_min_val_refuted",
    "C102_learned_init",
    "C102_learned_shape_mismatch",
    "C102_learned_positive",
    "C102_log_domain_positive",
    "C102_negative_value_refuted",
    "C102_limits_unsigned",
    "C102_limits_signed",
    "C102_signed_max_val_refuted",
    "C102_limits_power_of_two",
    "C102_power_of_two_clips_refuted"
   ],
   "note": "Five refutations. Exact real arithmetic."
  },
  {
   "property": "C103",
   "status": "proved",
   "theorems": [
    "C103_quantized",
    "C103_covered",
    "C103_saturates",
    "C103_unquantized",
    "C103_unquantized_zero_refuted",
    "C103_sign_refuted",
    "C103_first_call",
    "C103_local_loss_refuted",
    "C103_statistic_used_once",
    "C103_save_load",
    "C103_save_load_fresh",
    "C103_fresh_checkpoint_refuted",
    "C103_full_state_dict_refuted",
    "C103_early_step_refuted"
   ],
   "note": "Six refutations (named _refuted)."
  },
  {
   "property": "C104",
   "status": "proved",
   "theorems": [
    "C104_part",
    "C104_value",
    "C104_disabled",
    "C104_history",
    "C104_gpxq_column",
    "C104_output_channel_refuted",
    "C104_output_channels_refuted",
    "C104_exception_refuted",
    "C104_rebuilt_refuted",
    "C104_reloaded_refuted",
    "C104_transposed_groups_refuted"
   ],
   "note": "Six refutations (named _refuted)."
  },
  {
   "property": "C105",
   "status": "proved",
   "theorems": [
    "C105_linear",
    "C105_linear_quant_bias",
    "C105_linear_float_bias",
    "C105_conv",
    "C105_conv_quant_bias",
    "C105_bit_width",
    "C105_zero_point_blocks",
    "C105_chained_convolutions_refuted",
    "C105_linear_3d_refuted",
    "C105_linear_1d_refuted",
    "C105_unbatched_conv_refuted"
   ],
   "note": "Exact arithmetic. Four refutations (named _refuted)."
  },
  {
   "property": "C106",
   "status": "proved",
   "theorems": [
    "C106_onnx",
    "C106_torch",
    "C106_succeeds",
    "C106_disabled_activation",
    "C106_history",
    "C106_reads",
    "C106_state_kept",
    "C106_success_resets",
    "C106_retry_refuted",
    "C106_other_target_refuted",
    "C106_training_after_failure_refuted",
    "C106_grads_after_failure_refuted",
    "C106_training_flag_refuted",
    "C106_getter_after_export_refuted",
    "C106_manual_reset_refuted"
   ],
   "note": "A model is its list of modules with the calls each pass makes; recurrent layers, dynamic quantizers and biases with external scale are left out. Refutations are named _refuted."
  },
  {
   "property": "C107",
   "status": "proved",
   "theorems": [
    "C107_int_weight",
    "C107_float_weight",
    "C107_act_scale",
    "C107_int_act_small_zero",
    "C107_int8_act_large_zero",
    "C107_float_act_small_zero",
    "C107_int_weight_peak_refuted",
    "C107_weight_scale_pow2_refuted",
    "C107_act_like_weight_refuted"
   ],
   "note": "Exact arithmetic: log2 is exact under the ceiling, 2**x does not overflow. The MSE and shifted variants are not covered. Refutations are named _refuted."
  },
  {
   "property": "C108",
   "status": "proved",
   "theorems": [
    "C108_stats_scale",
    "C108_rebuild_forgets",
    "C108_preserve",
    "C108_load",
    "C108_load_keep",
    "C108_load_returns",
    "C108_round_trip",
    "C108_optimizer_left_behind",
    "C108_parameters_kept",
    "C108_weights_kept",
    "C108_own_checkpoint_refuted",
    "C108_unshared_into_shared_refuted",
    "C108_failed_load_atomic_refuted",
    "C108_round_trip_keep_refuted"
   ],
   "note": "Weights, statistics and initialisers are abstract; one scale per quantizer, weight quantizers only. The round trip assumes that layers tied in the target have equal weights in the source, and that no optimizer changed the placeholder 1 of a quantizer before its first call. Loads assume that tied layers have equal entries in the checkpoint. Refutations are named _refuted."
  },
  {
   "property": "C109",
   "status": "proved",
   "theorems": [
    "C109_bn2d",
    "C109_bn2d_exact",
    "C109_bn_checkpoint_returns",
    "C109_own_checkpoint",
    "C109_bn1d_3d",
    "C109_bn1d_2d",
    "C109_uncallable",
    "C109_scale_bias",
    "C109_wrong_size_accepted_refuted",
    "C109_old_checkpoint_refuted"
   ],
   "note": "Real arithmetic; the input is a plain tensor and neither input nor output is quantized; quantizer entries of checkpoints are left out. Refutations are named _refuted; C109_bn1d_3d, C109_bn1d_2d and C109_uncallable state the failing behaviour for all inputs."
  },
  {
   "property": "C110",
   "status": "proved",
   "theorems": [
    "C110_matrix",
    "C110_returns",
    "C110_bounded",
    "C110_parseval",
    "C110_order",
    "C110_codes",
    "C110_range",
    "C110_checkpoint",
    "C110_range_refuted",
    "C110_batch_independent_refuted",
    "C110_orthogonal_refuted"
   ],
   "note": "Real arithmetic; per-tensor scale, zero point and bit width of the input. Refutations are named _refuted."
  },
  {
   "property": "C111",
   "status": "proved",
   "theorems": [
    "C111_add",
    "C111_add_no_output",
    "C111_add_commutes",
    "C111_add_unquantized",
    "C111_unusable",
    "C111_embedding_returns",
    "C111_embedding",
    "C111_add_swapped_refuted",
    "C111_max_norm_refuted"
   ],
   "note": "Operands of equal shape, integer quantizers of fixed scale, integer zero point and bit width. Exact rational arithmetic. Refutations are named _refuted; C111_unusable states that QuantCat and tied quantizers always raise."
  },
  {
   "property": "C112",
   "status": "proved",
   "theorems": [
    "C112_expand",
    "C112_int",
    "C112_int_raises",
    "C112_int_value",
    "C112_binary_constant_refuted",
    "C112_arithmetic",
    "C112_add_commutes",
    "C112_sub",
    "C112_negation_refuted",
    "C112_functions_refuted",
    "C112_functions",
    "C112_layer_input_refuted",
    "C112_cache"
   ],
   "note": "Exact rational arithmetic, float32 tolerance; operands of the same shape or single numbers. Empty tensors, on which torch.max raises, count as valid. The theorems named _refuted state, for all tensors, what raises."
  },
  {
   "property": "C113",
   "status": "proved",
   "theorems": [
    "C113_reciprocal",
    "C113_pool_value",
    "C113_pool_returns",
    "C113_pool_metadata",
    "C113_pool_exact_refuted",
    "C113_pool_codes",
    "C113_pool_signed_refuted",
    "C113_pool_ceil_refuted",
    "C113_leaky_grid",
    "C113_leaky_monotone",
    "C113_leaky_positive",
    "C113_leaky_error",
    "C113_calibration_alone",
    "C113_calibration_average",
    "C113_calibration_refuted",
    "C113_sharing",
    "C113_own_quantizers",
    "C113_independent_refuted"
   ],
   "note": "Exact rational arithmetic. One image channel; torch's avg_pool2d with count_include_pad is modelled from its documentation. Calibration: one training pass, at most 50000 elements (the percentile is then the maximum). The theorems named _refuted show where the natural expectation fails."
  },
  {
   "property": "C114",
   "status": "proved",
   "theorems": [
    "C114_statistics_to_parameter",
    "C114_learned_value",
    "C114_old_activation",
    "C114_mixed_refuted",
    "C114_same_scale",
    "C114_same_scale_parameter",
    "C114_same_scale_refuted",
    "C114_minimum_refuted",
    "C114_affine_refuted",
    "C114_bit_width",
    "C114_bit_width_entries",
    "C114_bit_width_refuted",
    "C114_sentinel",
    "C114_trunc_sentinel",
    "C114_trunc_sentinel_refuted"
   ],
   "note": "Exact real arithmetic. One number per entry. torch's default loader is assumed to take the entry of the parameter's name or keep the initial value. The theorems named _refuted show where the natural expectation fails."
  },
  {
   "property": "C115",
   "status": "proved",
   "theorems": [
    "C115_returns",
    "C115_projection",
    "C115_idempotent",
    "C115_raises",
    "C115_channels",
    "C115_channels_return",
    "C115_plain_scale",
    "C115_other_layers_refuted",
    "C115_zero_center_refuted"
   ],
   "note": "Exact rational arithmetic. apply_ep_init is modelled for one channel of one layer; the scale does not depend on the weights (ParameterScaling, the default). The theorems named _refuted show where the natural expectation fails."
  },
  {
   "property": "C116",
   "status": "proved",
   "theorems": [
    "C116_shift_lossless",
    "C116_shift_signed_refuted",
    "C116_shift_dropped_refuted",
    "C116_bits_lossless",
    "C116_bits_padding_refuted",
    "C116_bytes",
    "C116_import_refuted",
    "C116_other_widths"
   ],
   "note": "One row of the matrix. torch's eight-bit shifts wrap around, and numpy's packbits and unpackbits start with the most significant bit (documented behaviour, assumed). The theorems named _refuted show where the natural expectation fails."
  }
 ]
}
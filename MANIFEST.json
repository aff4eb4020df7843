{
 "claims": [
  {
   "property": "C01",
   "status": "proved",
   "theorems": [
    "C01_context_restored",
    "C01_init_restores",
    "C01_apply_restores"
   ],
   "note": ""
  },
  {
   "property": "C02",
   "status": "proved",
   "theorems": [
    "C02_params_fixed",
    "C02_get_parameter",
    "C02_apply_keeps_params"
   ],
   "note": ""
  },
  {
   "property": "C03",
   "status": "proved",
   "theorems": [
    "C03_param_stable",
    "C03_read_existing",
    "C03_init_returns",
    "C03_shape",
    "C03_reentrant_initializer_refuted"
   ],
   "note": ""
  },
  {
   "property": "C04",
   "status": "proved",
   "theorems": [
    "C04_initial_stable",
    "C04_first_set",
    "C04_init_returns_first",
    "C04_apply_returns_last",
    "C04_apply_keeps_entries",
    "C04_running_init"
   ],
   "note": ""
  },
  {
   "property": "C05",
   "status": "proved",
   "theorems": [
    "C05_get_after_set",
    "C05_set_frame",
    "C05_get_after_set_later"
   ],
   "note": ""
  },
  {
   "property": "C06",
   "status": "proved",
   "theorems": [
    "C06_replay",
    "C06_no_error",
    "C06_rng",
    "C06_eval_shape_refuted",
    "C06_scan_refuted",
    "C06_try_refuted",
    "C06_creator_refuted",
    "C06_running_init_refuted",
    "C06_keys_refuted",
    "C06_none_refuted"
   ],
   "note": ""
  },
  {
   "property": "C07",
   "status": "proved",
   "theorems": [
    "C07_keys_unrelated",
    "C07_all_keys_unrelated",
    "C07_log_is_delivery",
    "C07_while_cond_refuted"
   ],
   "note": ""
  },
  {
   "property": "C08",
   "status": "proved",
   "theorems": [
    "C08_with_rng_restores",
    "C08_keys_from_given",
    "C08_maybe"
   ],
   "note": ""
  },
  {
   "property": "C09",
   "status": "proved",
   "theorems": [
    "C09_rng_irrelevant",
    "C09_while_refuted",
    "C09_maybe_refuted",
    "C09_try_refuted"
   ],
   "note": ""
  },
  {
   "property": "C10",
   "status": "proved",
   "theorems": [
    "C10_nested_apply",
    "C10_nested_init",
    "C10_same_as_top_level",
    "C10_creators_reach_inside_refuted",
    "C10_apply_none"
   ],
   "note": ""
  },
  {
   "property": "C11",
   "status": "proved",
   "theorems": [
    "C11_unique",
    "C11_prefix",
    "C11_scope_name"
   ],
   "note": ""
  },
  {
   "property": "C12",
   "status": "proved",
   "theorems": [
    "C12_auto_never_fails",
    "C12_numbering",
    "C12_explicit_clash_refuted",
    "C12_explicit"
   ],
   "note": ""
  },
  {
   "property": "C13",
   "status": "proved",
   "theorems": [
    "C13_frame",
    "C13_names",
    "C13_again"
   ],
   "note": ""
  },
  {
   "property": "C14",
   "status": "proved",
   "theorems": [
    "C14_jit_returns",
    "C14_jit_raises",
    "C14_failed_jit_key_reuse_refuted"
   ],
   "note": ""
  },
  {
   "property": "C15",
   "status": "proved",
   "theorems": [
    "C15_jit_names_refuted"
   ],
   "note": ""
  },
  {
   "property": "C16",
   "status": "proved",
   "theorems": [
    "C16_switch_commits_selected",
    "C16_switch_succeeds",
    "C16_cond_is_switch"
   ],
   "note": ""
  },
  {
   "property": "C17",
   "status": "proved",
   "theorems": [
    "C17_scan_is_loop",
    "C17_larger_block_refuted"
   ],
   "note": ""
  },
  {
   "property": "C18",
   "status": "proved",
   "theorems": [
    "C18_scan_init_is_loop",
    "C18_reverse_order_refuted",
    "C18_empty_runs_body_refuted",
    "C18_module_in_body_refuted"
   ],
   "note": ""
  },
  {
   "property": "C19",
   "status": "proved",
   "theorems": [
    "C19_fori_is_loop",
    "C19_fori_init_is_loop",
    "C19_empty_at_init_refuted"
   ],
   "note": ""
  },
  {
   "property": "C20",
   "status": "proved",
   "theorems": [
    "C20_while_is_loop",
    "C20_while_at_init",
    "C20_stale_condition_refuted",
    "C20_condition_key",
    "C20_reserved_key_refuted"
   ],
   "note": ""
  },
  {
   "property": "C21",
   "status": "proved",
   "theorems": [
    "C21_eval_shape_no_effect",
    "C21_eval_shape_result"
   ],
   "note": ""
  },
  {
   "property": "C22",
   "status": "proved",
   "theorems": [
    "C22_vmap_lanes",
    "C22_vmap_succeeds"
   ],
   "note": ""
  },
  {
   "property": "C23",
   "status": "proved",
   "theorems": [
    "C23_params_diff",
    "C23_state_diff",
    "C23_snapshot_diff"
   ],
   "note": ""
  },
  {
   "property": "C24",
   "status": "proved",
   "theorems": [
    "C24_methods",
    "C24_methods_raise",
    "C24_constructors",
    "C24_next_twice_refuted"
   ],
   "note": ""
  },
  {
   "property": "C25",
   "status": "proved",
   "theorems": [
    "C25_flags",
    "C25_getter_flags",
    "C25_param_created",
    "C25_param_read",
    "C25_state_created",
    "C25_state_read",
    "C25_creator_next_twice_refuted",
    "C25_getter_next_twice_refuted",
    "C25_with_block",
    "C25_pops",
    "C25_empty",
    "C25_active_only_inside_refuted",
    "C25_active_inside_refuted",
    "C25_drop_other_refuted"
   ],
   "note": ""
  },
  {
   "property": "C26",
   "status": "proved",
   "theorems": [
    "C26_params",
    "C26_state",
    "C26_no_collision",
    "C26_no_collision_refuted",
    "C26_recorded"
   ],
   "note": ""
  },
  {
   "property": "C27",
   "status": "proved",
   "theorems": [
    "C27_init",
    "C27_apply",
    "C27_round_trip",
    "C27_second_call",
    "C27_twice_refuted"
   ],
   "note": ""
  },
  {
   "property": "C28",
   "status": "proved",
   "theorems": [
    "C28_result",
    "C28_init_refuted",
    "C28_apply_refuted"
   ],
   "note": ""
  },
  {
   "property": "C29",
   "status": "proved",
   "theorems": [
    "C29_take",
    "C29_next_fifo",
    "C29_reserve_appends",
    "C29_queue",
    "C29_take_vs_next_refuted",
    "C29_next_rng_keys"
   ],
   "note": ""
  },
  {
   "property": "C30",
   "status": "proved",
   "theorems": [
    "C30_full_size",
    "C30_full_keeps_prefix",
    "C30_truncated_not_reused"
   ],
   "note": ""
  },
  {
   "property": "C31",
   "status": "proved",
   "theorems": [
    "C31_isolation",
    "C31_alone",
    "C31_separated",
    "C31_new_thread",
    "C31_stacks"
   ],
   "note": ""
  },
  {
   "property": "C32",
   "status": "proved",
   "theorems": [
    "C32_alone",
    "C32_count_refuted",
    "C32_missed_refuted",
    "C32_leak_refuted",
    "C32_keys_refuted"
   ],
   "note": ""
  },
  {
   "property": "C33",
   "status": "proved",
   "theorems": [
    "C33_round_trip",
    "C33_immutable_contents",
    "C33_mutable_contents",
    "C33_isolated",
    "C33_mutable_fresh",
    "C33_nested_mapping_aliased_refuted",
    "C33_mutable_copy_shared_refuted"
   ],
   "note": ""
  },
  {
   "property": "C34",
   "status": "proved",
   "theorems": [
    "C34_lossless",
    "C34_tree_map",
    "C34_equality",
    "C34_hash",
    "C34_hash_refuted"
   ],
   "note": ""
  },
  {
   "property": "C35",
   "status": "proved",
   "theorems": [
    "C35_partition",
    "C35_partition_modules",
    "C35_merge_partition",
    "C35_empty_modules_refuted"
   ],
   "note": ""
  },
  {
   "property": "C36",
   "status": "proved",
   "theorems": [
    "C36_filter",
    "C36_map",
    "C36_merge",
    "C36_merge_modules",
    "C36_map_empty_modules_refuted"
   ],
   "note": ""
  },
  {
   "property": "C37",
   "status": "proved",
   "theorems": [
    "C37_default_valid",
    "C37_never_rejected",
    "C37_default_module_created",
    "C37_snake_unchanged",
    "C37_idempotent",
    "C37_exact"
   ],
   "note": ""
  },
  {
   "property": "C38",
   "status": "proved",
   "theorems": [
    "C38_getter",
    "C38_creator",
    "C38_slash_refuted"
   ],
   "note": ""
  },
  {
   "property": "C39",
   "status": "proved",
   "theorems": [
    "C39_accepted",
    "C39_newline_refuted",
    "C39_rejected",
    "C39_identifier"
   ],
   "note": ""
  },
  {
   "property": "C40",
   "status": "proved",
   "theorems": [
    "C40_sizes",
    "C40_same_strided",
    "C40_causal",
    "C40_reverse_causal",
    "C40_causal_sharp",
    "C40_create",
    "C40_pairs_refuted"
   ],
   "note": ""
  },
  {
   "property": "C41",
   "status": "proved",
   "theorems": [
    "C41_size",
    "C41_accepts",
    "C41_transpose",
    "C41_empty_refuted"
   ],
   "note": ""
  },
  {
   "property": "C42",
   "status": "proved",
   "theorems": [
    "C42_infer_shape",
    "C42_rejected",
    "C42_axis_zero_refuted",
    "C42_minus_ndim_refuted",
    "C42_windows"
   ],
   "note": ""
  },
  {
   "property": "C43",
   "status": "proved",
   "theorems": [
    "C43_bias_shape",
    "C43_accepted",
    "C43_out_of_range_refuted"
   ],
   "note": ""
  },
  {
   "property": "C44",
   "status": "proved",
   "theorems": [
    "C44_elements",
    "C44_wildcard",
    "C44_flatten",
    "C44_constructor",
    "C44_empty_batch_refuted",
    "C44_zero"
   ],
   "note": ""
  },
  {
   "property": "C45",
   "status": "proved",
   "theorems": [
    "C45_merge_split",
    "C45_batch_apply",
    "C45_total"
   ],
   "note": ""
  },
  {
   "property": "C46",
   "status": "proved",
   "theorems": [
    "C46_axes",
    "C46_cells",
    "C46_position",
    "C46_batch_refuted",
    "C46_groups_refuted",
    "C46_shapes",
    "C46_second_shape_refuted"
   ],
   "note": ""
  },
  {
   "property": "C47",
   "status": "proved",
   "theorems": [
    "C47_layers",
    "C47_dropout_arguments",
    "C47_reverse",
    "C47_reverse_twice",
    "C47_uncalled_refuted",
    "C47_failed_call_refuted"
   ],
   "note": ""
  },
  {
   "property": "C48",
   "status": "proved",
   "theorems": [
    "C48_average",
    "C48_bounds",
    "C48_constant",
    "C48_decay_one_refuted",
    "C48_init"
   ],
   "note": ""
  },
  {
   "property": "C49",
   "status": "proved",
   "theorems": [
    "C49_warmup"
   ],
   "note": ""
  },
  {
   "property": "C50",
   "status": "proved",
   "theorems": [
    "C50_agree",
    "C50_dynamic_then_static",
    "C50_loop",
    "C50_empty",
    "C50_empty_refuted",
    "C50_ragged_refuted",
    "C50_carry_refuted"
   ],
   "note": ""
  },
  {
   "property": "C51",
   "status": "proved",
   "theorems": [
    "C51_segments",
    "C51_prefix",
    "C51_rejected",
    "C51_unbatched",
    "C51_scalar_refuted",
    "C51_broadcast"
   ],
   "note": ""
  },
  {
   "property": "C52",
   "status": "proved",
   "theorems": [
    "C52_unroll",
    "C52_skip_unroll",
    "C52_state",
    "C52_skip_needs_cores"
   ],
   "note": ""
  },
  {
   "property": "C53",
   "status": "proved",
   "theorems": [
    "C53_nearest"
   ],
   "note": ""
  },
  {
   "property": "C54",
   "status": "proved",
   "theorems": [
    "C54_agree",
    "C54_out_of_range",
    "C54_range_refuted",
    "C54_nonfinite_refuted",
    "C54_constructor",
    "C54_zero_refuted",
    "C54_style"
   ],
   "note": ""
  },
  {
   "property": "C55",
   "status": "proved",
   "theorems": [
    "C55_eval",
    "C55_train",
    "C55_variance",
    "C55_normalised",
    "C55_cross_replica",
    "C55_axis",
    "C55_negative_axis_refuted",
    "C55_eval_after_init"
   ],
   "note": ""
  },
  {
   "property": "C56",
   "status": "proved",
   "theorems": [
    "C56_inverse_cdf",
    "C56_batch",
    "C56_short_refuted"
   ],
   "note": ""
  },
  {
   "property": "C57",
   "status": "proved",
   "theorems": [
    "C57_lstm",
    "C57_gru",
    "C57_gru_start_refuted",
    "C57_vanilla",
    "C57_vanilla_unbounded"
   ],
   "note": ""
  },
  {
   "property": "C58",
   "status": "proved",
   "theorems": [
    "C58_single_use",
    "C58_later_raises",
    "C58_restores"
   ],
   "note": ""
  },
  {
   "property": "C59",
   "status": "proved",
   "theorems": [
    "C59_log",
    "C59_complete",
    "C59_none_refuted"
   ],
   "note": ""
  },
  {
   "property": "C60",
   "status": "proved",
   "theorems": [
    "C60_without_state_init",
    "C60_without_state_apply",
    "C60_transform_init",
    "C60_transform_apply",
    "C60_without_rng",
    "C60_commute",
    "C60_kind_refuted",
    "C60_twice_refuted"
   ],
   "note": ""
  },
  {
   "property": "C61",
   "status": "proved",
   "theorems": [
    "C61_entries",
    "C61_state_refuted",
    "C61_transform_refuted",
    "C61_param_refuted"
   ],
   "note": ""
  },
  {
   "property": "C62",
   "status": "proved",
   "theorems": [
    "C62_one_step",
    "C62_no_reuse",
    "C62_no_false_alarm",
    "C62_reuse_refuted",
    "C62_reserved_refuted",
    "C62_alias_refuted"
   ],
   "note": ""
  },
  {
   "property": "C63",
   "status": "proved",
   "theorems": [
    "C63_channels_last",
    "C63_channels_first"
   ],
   "note": ""
  },
  {
   "property": "C64",
   "status": "proved",
   "theorems": [
    "C64_ema",
    "C64_sn",
    "C64_injective",
    "C64_collision_refuted",
    "C64_order_refuted",
    "C64_numbered_refuted",
    "C64_invalid_refuted"
   ],
   "note": ""
  },
  {
   "property": "C65",
   "status": "proved",
   "theorems": [
    "C65_embedding",
    "C65_smoothing",
    "C65_mean",
    "C65_bounded",
    "C65_batch_size",
    "C65_unused",
    "C65_evaluation",
    "C65_perplexity",
    "C65_keep_refuted",
    "C65_accepts",
    "C65_output",
    "C65_latent_loss",
    "C65_decay_refuted",
    "C65_perplexity_refuted"
   ],
   "note": ""
  },
  {
   "property": "C66",
   "status": "proved",
   "theorems": [
    "C66_window",
    "C66_average",
    "C66_average_bounds",
    "C66_average_constant",
    "C66_max",
    "C66_separate",
    "C66_window_size_refuted"
   ],
   "note": ""
  },
  {
   "property": "C67",
   "status": "proved",
   "theorems": [
    "C67_weights",
    "C67_convex",
    "C67_permutation",
    "C67_uniform_mask",
    "C67_masked",
    "C67_all_masked_refuted",
    "C67_accepts",
    "C67_rows",
    "C67_memory_order",
    "C67_masked_values",
    "C67_defaults",
    "C67_query_size_refuted"
   ],
   "note": ""
  },
  {
   "property": "C68",
   "status": "proved",
   "theorems": [
    "C68_cell",
    "C68_variance",
    "C68_moments",
    "C68_bounded",
    "C68_local",
    "C68_affine",
    "C68_axes",
    "C68_instance",
    "C68_choose",
    "C68_channel_scale_refuted",
    "C68_channel_scale",
    "C68_rank_2"
   ],
   "note": ""
  },
  {
   "property": "C69",
   "status": "proved",
   "theorems": [
    "C69_calls",
    "C69_sigma",
    "C69_monotone",
    "C69_converges",
    "C69_limit",
    "C69_fixed_point",
    "C69_small",
    "C69_bounded_refuted",
    "C69_monotone_refuted",
    "C69_no_steps",
    "C69_norm_refuted",
    "C69_zero_refuted",
    "C69_shape",
    "C69_scalar_refuted"
   ],
   "note": ""
  },
  {
   "property": "C70",
   "status": "proved",
   "theorems": [
    "C70_fans",
    "C70_n",
    "C70_draws",
    "C70_variance_scaling",
    "C70_uniform_scaling",
    "C70_uniform_scaling_refuted",
    "C70_square_rows",
    "C70_orthogonal",
    "C70_larger_axis_refuted",
    "C70_rank_deficient_refuted",
    "C70_identity",
    "C70_rank"
   ],
   "note": ""
  },
  {
   "property": "C71",
   "status": "proved",
   "theorems": [
    "C71_sequential",
    "C71_nesting",
    "C71_empty_front_refuted",
    "C71_batch_apply",
    "C71_batch_apply_rank",
    "C71_batch_apply_one",
    "C71_lead_mismatch_refuted",
    "C71_expand_apply",
    "C71_expand_squeeze",
    "C71_expand_axis",
    "C71_to_module",
    "C71_to_module_lambda"
   ],
   "note": ""
  },
  {
   "property": "C72",
   "status": "proved",
   "theorems": [
    "C72_dropout_accepts",
    "C72_dropout_zero",
    "C72_dropout_element",
    "C72_dropout_unbiased",
    "C72_masks",
    "C72_multinomial_frequency",
    "C72_multinomial_support",
    "C72_multinomial_zero_refuted"
   ],
   "note": ""
  },
  {
   "property": "C73",
   "status": "proved",
   "theorems": [
    "C73_channel_index",
    "C73_channel_letter",
    "C73_format_bytes",
    "C73_thousand_refuted",
    "C73_format_array",
    "C73_itemsize",
    "C73_tree_size",
    "C73_tree_size_app",
    "C73_repr_round_trip",
    "C73_getcallargs",
    "C73_repr_varargs_refuted"
   ],
   "note": ""
  },
  {
   "property": "C74",
   "status": "proved",
   "theorems": [
    "C74_owned_params",
    "C74_owned_order",
    "C74_slash_in_name_refuted",
    "C74_sort_owned",
    "C74_format_owned",
    "C74_tabulate"
   ],
   "note": ""
  },
  {
   "property": "C75",
   "status": "proved",
   "theorems": [
    "C75_to_graph",
    "C75_nodes",
    "C75_edges",
    "C75_captures",
    "C75_declared",
    "C75_clusters",
    "C75_depth",
    "C75_names",
    "C75_names_refuted",
    "C75_escape",
    "C75_arg_label_refuted",
    "C75_output_label",
    "C75_output_path_refuted",
    "C75_second_output_refuted",
    "C75_declared_once_refuted"
   ],
   "note": ""
  },
  {
   "property": "C76",
   "status": "proved",
   "theorems": [
    "C76_block_projection",
    "C76_block_identity",
    "C76_block_identity_fits",
    "C76_block_identity_raises",
    "C76_block_stride_refuted",
    "C76_group",
    "C76_resnet",
    "C76_configs",
    "C76_parameters",
    "C76_projection_length_refuted",
    "C76_lengths",
    "C76_depthwise_accepts",
    "C76_mobile_block",
    "C76_mobilenet",
    "C76_mobilenet_default",
    "C76_mobilenet_small_refuted"
   ],
   "note": ""
  },
  {
   "property": "C77",
   "status": "proved",
   "theorems": [
    "C77_formula",
    "C77_per_example",
    "C77_formats",
    "C77_linear",
    "C77_groups",
    "C77_crop",
    "C77_pointwise",
    "C77_dense",
    "C77_depthwise",
    "C77_separable_valid",
    "C77_separable_unit",
    "C77_separable_stride_refuted",
    "C77_separable_padding_refuted"
   ],
   "note": ""
  },
  {
   "property": "C78",
   "status": "proved",
   "theorems": [
    "C78_formula",
    "C78_per_example",
    "C78_adjoint",
    "C78_accepts",
    "C78_default_shape",
    "C78_unflipped_refuted"
   ],
   "note": ""
  },
  {
   "property": "C79",
   "status": "proved",
   "theorems": [
    "C79_exact",
    "C79_layer_norm",
    "C79_dense_width",
    "C79_causal",
    "C79_logits",
    "C79_accepts",
    "C79_cross_entropy",
    "C79_padding",
    "C79_leading_padding_refuted"
   ],
   "note": ""
  },
  {
   "property": "C80",
   "status": "proved",
   "theorems": [
    "C80_fifo",
    "C80_published",
    "C80_actors",
    "C80_lag",
    "C80_stuck",
    "C80_run_returns_refuted",
    "C80_main_returns_refuted",
    "C80_lag_bounded_refuted",
    "C80_can_end",
    "C80_bounded"
   ],
   "note": ""
  },
  {
   "property": "C81",
   "status": "proved",
   "theorems": [
    "C81_unrolls",
    "C81_lite_unrolls",
    "C81_pairs",
    "C81_keys",
    "C81_on_policy",
    "C81_on_policy_later",
    "C81_mask",
    "C81_on_policy_refuted"
   ],
   "note": ""
  },
  {
   "property": "C82",
   "status": "proved",
   "theorems": [
    "C82_fifo",
    "C82_no_hang",
    "C82_run_length"
   ],
   "note": ""
  },
  {
   "property": "C83",
   "status": "proved",
   "theorems": [
    "C83_enters",
    "C83_found",
    "C83_property",
    "C83_other",
    "C83_patched",
    "C83_private",
    "C83_alias_refuted",
    "C83_alias_general",
    "C83_repr",
    "C83_repr_inherited_refuted",
    "C83_construct",
    "C83_super_check_refuted",
    "C83_name",
    "C83_init_twice",
    "C83_second_instance_refuted"
   ],
   "note": ""
  },
  {
   "property": "C84",
   "status": "proved",
   "theorems": [
    "C84_shape",
    "C84_documented_refuted",
    "C84_documented_accepted_refuted",
    "C84_formula",
    "C84_bounded",
    "C84_pointwise",
    "C84_local"
   ],
   "note": ""
  },
  {
   "property": "C85",
   "status": "proved",
   "theorems": [
    "C85_formula",
    "C85_local",
    "C85_example",
    "C85_moments",
    "C85_affine",
    "C85_constant",
    "C85_one_group",
    "C85_all_groups",
    "C85_docstring_refuted"
   ],
   "note": ""
  },
  {
   "property": "C86",
   "status": "proved",
   "theorems": [
    "C86_topk",
    "C86_count",
    "C86_schedule",
    "C86_end_refuted",
    "C86_partitions",
    "C86_apply",
    "C86_masks",
    "C86_frozen",
    "C86_evaluated",
    "C86_final",
    "C86_unpruned",
    "C86_matching"
   ],
   "note": ""
  },
  {
   "property": "C87",
   "status": "proved",
   "theorems": [
    "C87_shards",
    "C87_splits",
    "C87_leak_refuted",
    "C87_too_many_hosts",
    "C87_batches",
    "C87_evaluate",
    "C87_repeat",
    "C87_crop"
   ],
   "note": ""
  },
  {
   "property": "C88",
   "status": "proved",
   "theorems": [
    "C88_names",
    "C88_names_refuted",
    "C88_files",
    "C88_resume",
    "C88_lost",
    "C88_torn",
    "C88_steps",
    "C88_keys",
    "C88_order_refuted",
    "C88_max_steps_refuted",
    "C88_shift"
   ],
   "note": ""
  },
  {
   "property": "C89",
   "status": "proved",
   "theorems": [
    "C89_sample",
    "C89_prefix",
    "C89_empty",
    "C89_keys",
    "C89_clamped_refuted",
    "C89_windows",
    "C89_context"
   ],
   "note": ""
  },
  {
   "property": "C90",
   "status": "proved",
   "theorems": [
    "C90_schedule",
    "C90_first",
    "C90_steps",
    "C90_after_end_refuted",
    "C90_smooth",
    "C90_classes_refuted",
    "C90_mixture",
    "C90_gibbs",
    "C90_weight_decay",
    "C90_decayed",
    "C90_decay_name_refuted",
    "C90_sync",
    "C90_state_refuted",
    "C90_pmean",
    "C90_likelihood",
    "C90_bce_nonneg",
    "C90_kl",
    "C90_vae_loss",
    "C90_mnist",
    "C90_average"
   ],
   "note": ""
  },
  {
   "property": "C91",
   "status": "proved",
   "theorems": [
    "C91_kept",
    "C91_traces",
    "C91_reuses",
    "C91_calm",
    "C91_modules_refuted",
    "C91_getter_refuted",
    "C91_names_refuted"
   ],
   "note": ""
  },
  {
   "property": "C92",
   "status": "proved",
   "theorems": [
    "C92_search",
    "C92_modules",
    "C92_subclasses",
    "C92_combined",
    "C92_names",
    "C92_names_refuted",
    "C92_bools",
    "C92_range"
   ],
   "note": ""
  },
  {
   "property": "C93",
   "status": "proved",
   "theorems": [
    "C93_value_and_grad",
    "C93_raises",
    "C93_grad",
    "C93_grad_raises",
    "C93_not_in_transform",
    "C93_outside"
   ],
   "note": ""
  },
  {
   "property": "C94",
   "status": "proved",
   "theorems": [
    "C94_shapes",
    "C94_mobile_shapes",
    "C94_per_example",
    "C94_mobile_per_example",
    "C94_homogeneous",
    "C94_shallow",
    "C94_first_loss",
    "C94_fold",
    "C94_fresh",
    "C94_training_refuted",
    "C94_flow_v1",
    "C94_flow_v2",
    "C94_flow_group",
    "C94_flow_resnet",
    "C94_flow_mobile",
    "C94_normalised",
    "C94_head",
    "C94_pool",
    "C94_relu_sum"
   ],
   "note": ""
  },
  {
   "property": "C95",
   "status": "proved",
   "theorems": [
    "C95_unroll",
    "C95_feedforward",
    "C95_segment",
    "C95_restart",
    "C95_shallow",
    "C95_residual",
    "C95_residual_identity",
    "C95_deep_shape",
    "C95_deep_layers",
    "C95_defined",
    "C95_call_refuted",
    "C95_catch",
    "C95_preprocess",
    "C95_catch_state",
    "C95_step",
    "C95_catch_values"
   ],
   "note": ""
  },
  {
   "property": "C96",
   "status": "proved",
   "theorems": [
    "C96_lattice",
    "C96_initializers",
    "C96_one_type",
    "C96_runs",
    "C96_cores",
    "C96_never_narrower",
    "C96_linear",
    "C96_conv",
    "C96_getter_refuted",
    "C96_mask",
    "C96_average",
    "C96_warmup",
    "C96_initial_state",
    "C96_half_state_refuted",
    "C96_unrolls_refuted",
    "C96_embed",
    "C96_embed_refuted",
    "C96_attention_mask_refuted",
    "C96_vq",
    "C96_vq_ema",
    "C96_vq_ema_refuted",
    "C96_bf16",
    "C96_bf16_refuted",
    "C96_cores_mixed"
   ],
   "note": ""
  },
  {
   "property": "C97",
   "status": "proved",
   "theorems": [
    "C97_errors",
    "C97_loss",
    "C97_on_policy",
    "C97_targets",
    "C97_episodes",
    "C97_consistent",
    "C97_lite",
    "C97_entropy",
    "C97_signs",
    "C97_irrelevant",
    "C97_agents",
    "C97_truncation_refuted"
   ],
   "note": ""
  },
  {
   "property": "C98",
   "status": "proved",
   "theorems": [
    "C98_forms",
    "C98_positional",
    "C98_runs",
    "C98_selected",
    "C98_errors",
    "C98_bad_arguments",
    "C98_memo",
    "C98_memo_once",
    "C98_memo_without_closure_refuted"
   ],
   "note": ""
  },
  {
   "property": "C99",
   "status": "proved",
   "theorems": [
    "C99_strict",
    "C99_training",
    "C99_recurrent",
    "C99_refuses",
    "C99_multiplier",
    "C99_mask",
    "C99_batch_norm",
    "C99_other_rank",
    "C99_cores",
    "C99_initializers",
    "C99_orthogonal_refuted",
    "C99_transformer_refuted",
    "C99_state_read"
   ],
   "note": ""
  },
  {
   "property": "C100",
   "status": "proved",
   "theorems": [
    "C100_loads",
    "C100_round_trip",
    "C100_same_format",
    "C100_files",
    "C100_files_all_sizes",
    "C100_no_scale_refuted",
    "C100_unroll",
    "C100_unroll_cores",
    "C100_mlp",
    "C100_mlp_weights",
    "C100_resnet_sizes",
    "C100_evaluation",
    "C100_untrained",
    "C100_outside",
    "C100_set_get",
    "C100_names",
    "C100_conv_transpose_unbatched",
    "C100_conv_transpose_shapes",
    "C100_instance_axes",
    "C100_bias_raises",
    "C100_bias",
    "C100_stacks"
   ],
   "note": ""
  },
  {
   "property": "C101",
   "status": "proved",
   "theorems": [
    "C101_reads",
    "C101_pformat",
    "C101_injective",
    "C101_auto_repr",
    "C101_lines",
    "C101_files",
    "C101_files_read",
    "C101_keys",
    "C101_long_name_refuted",
    "C101_width_refuted",
    "C101_one_line_refuted",
    "C101_characters",
    "C101_escapes"
   ],
   "note": ""
  },
  {
   "property": "C102",
   "status": "proved",
   "theorems": [
    "C102_batch_norm",
    "C102_accepts",
    "C102_empty_name_refuted",
    "C102_vq_ema",
    "C102_local_codebooks_refuted",
    "C102_perplexity",
    "C102_loss"
   ],
   "note": ""
  },
  {
   "property": "C103",
   "status": "proved",
   "theorems": [
    "C103_frozen",
    "C103_sound",
    "C103_reverse",
    "C103_gradient",
    "C103_stop_refuted",
    "C103_quantizer_values",
    "C103_latent_values",
    "C103_straight_through",
    "C103_quantizer_loss",
    "C103_quantizer_gradient",
    "C103_quantizer_ema_gradient",
    "C103_quantizer_stationary",
    "C103_code_settled",
    "C103_codebook_gradient",
    "C103_quantizer_loss_refuted",
    "C103_spectral_values",
    "C103_spectral_norm",
    "C103_spectral_scale",
    "C103_batch_norm_values",
    "C103_layer_norm_values",
    "C103_batch_norm",
    "C103_layer_norm",
    "C103_norm_invariance",
    "C103_norm_mean",
    "C103_batch_norm_eval",
    "C103_log_softmax_values",
    "C103_log_softmax",
    "C103_cross_entropy_values",
    "C103_cross_entropy",
    "C103_cross_entropy_sound",
    "C103_cross_entropy_stationary",
    "C103_mnist",
    "C103_lm",
    "C103_binary_cross_entropy",
    "C103_kl_gaussian",
    "C103_policy_gradient"
   ],
   "note": ""
  },
  {
   "property": "C104",
   "status": "proved",
   "theorems": [
    "C104_values",
    "C104_linear",
    "C104_activations",
    "C104_activations_bounded",
    "C104_relu",
    "C104_mlp",
    "C104_dropout",
    "C104_relu_refuted",
    "C104_linear_gradient",
    "C104_embed",
    "C104_embed_styles",
    "C104_embed_styles_refuted",
    "C104_lstm",
    "C104_lstm_memory",
    "C104_gru",
    "C104_reset",
    "C104_no_reset",
    "C104_reset_blocks",
    "C104_cores"
   ],
   "note": ""
  },
  {
   "property": "C105",
   "status": "proved",
   "theorems": [
    "C105_mean",
    "C105_own",
    "C105_batch_norm",
    "C105_imagenet_loss",
    "C105_imagenet_value",
    "C105_smooth_labels",
    "C105_in_step",
    "C105_state_refuted"
   ],
   "note": ""
  },
  {
   "property": "C106",
   "status": "proved",
   "theorems": [
    "C106_values",
    "C106_derivative",
    "C106_sound",
    "C106_gradient",
    "C106_kernel_gradient",
    "C106_masked",
    "C106_bias_gradient",
    "C106_input_gradient",
    "C106_pool_values",
    "C106_avg_pool",
    "C106_max_pool",
    "C106_max_sound",
    "C106_avg_gradient",
    "C106_max_gradient",
    "C106_pool_conserves",
    "C106_max_refuted"
   ],
   "note": ""
  },
  {
   "property": "C107",
   "status": "proved",
   "theorems": [
    "C107_values",
    "C107_softmax",
    "C107_softmax_sum",
    "C107_sound",
    "C107_value_gradient",
    "C107_key_gradient",
    "C107_query_gradient",
    "C107_conserves",
    "C107_masked",
    "C107_masked_refuted"
   ],
   "note": ""
  },
  {
   "property": "C108",
   "status": "proved",
   "theorems": [
    "C108_predict",
    "C108_predict_raises",
    "C108_dataset",
    "C108_dataset_new",
    "C108_grid",
    "C108_reconstruction",
    "C108_gan_sizes",
    "C108_gan_keys",
    "C108_simultaneous",
    "C108_alternating_refuted",
    "C108_two_classes",
    "C108_opposed",
    "C108_fooled",
    "C108_fooled_line_refuted",
    "C108_one_pass",
    "C108_one_pass_refuted",
    "C108_display",
    "C108_sine",
    "C108_sine_recurrence",
    "C108_sine_memory_refuted",
    "C108_sine_period"
   ],
   "note": ""
  },
  {
   "property": "C109",
   "status": "proved",
   "theorems": [
    "C109_path",
    "C109_path_refuted",
    "C109_restores",
    "C109_call_stack",
    "C109_apply_params",
    "C109_apply_pure",
    "C109_surroundings",
    "C109_names",
    "C109_replay",
    "C109_mlp",
    "C109_replay_refuted",
    "C109_reuse_refuted",
    "C109_leak_refuted"
   ],
   "note": ""
  },
  {
   "property": "C110",
   "status": "proved",
   "theorems": [
    "C110_gradient",
    "C110_gradient_unique",
    "C110_step",
    "C110_frozen",
    "C110_training",
    "C110_records",
    "C110_full_batch",
    "C110_full_batch_refuted"
   ],
   "note": ""
  },
  {
   "property": "C111",
   "status": "proved",
   "theorems": [
    "C111_documented",
    "C111_finish",
    "C111_append",
    "C111_api",
    "C111_typing_refuted",
    "C111_private",
    "C111_insert_refuted"
   ],
   "note": ""
  },
  {
   "property": "C112",
   "status": "proved",
   "theorems": [
    "C112_packages",
    "C112_exclude",
    "C112_packages_refuted",
    "C112_version",
    "C112_no_version",
    "C112_link",
    "C112_link_missing",
    "C112_fragment",
    "C112_fragment_refuted"
   ],
   "note": ""
  }
 ]
}
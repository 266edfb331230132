{
 "claims": [
  {
   "property": "C01",
   "status": "proved",
   "theorems": [
    "C01_projection_scales_exactly",
    "C01_projection_back_restores",
    "C01_projection_via_intermediate",
    "C01_projection_same_size_is_identity",
    "C01_projection_rejects_nonpositive_sizes",
    "C01_keypoints_container_projects",
    "C01_boxes_container_projects"
   ],
   "note": ""
  },
  {
   "property": "C02",
   "status": "proved",
   "theorems": [
    "C02_constructor_orders_corners",
    "C02_contains_is_membership",
    "C02_intersection_is_common_points",
    "C02_no_intersection_means_disjoint",
    "C02_intersection_means_common_point",
    "C02_intersection_commutes",
    "C02_union_contains_both",
    "C02_union_is_smallest",
    "C02_union_commutes"
   ],
   "note": ""
  },
  {
   "property": "C03",
   "status": "proved",
   "theorems": [
    "C03_iou_in_unit_interval",
    "C03_iou_symmetric",
    "C03_iou_zero_when_disjoint",
    "C03_iou_of_box_with_itself",
    "C03_iou_one_means_same_corners",
    "C03_iou_is_overlap_over_union"
   ],
   "note": ""
  },
  {
   "property": "C04",
   "status": "partial",
   "theorems": [
    "C04_clip_result_in_plane_and_not_larger",
    "C04_clip_idempotent",
    "C04_clip_leaves_inside_boxes",
    "C04_clip_leaves_fully_inside_boxes_refuted",
    "C04_clip_is_exactly_the_visible_part",
    "C04_container_clip",
    "C04_clip_rejects_empty_images",
    "C04_partly_within_meaning",
    "C04_fully_within_meaning"
   ],
   "note": "The claim that clipping leaves boxes inside the image unchanged is false of the code for boxes reaching closer than float32-eps to the far border; shown by C04_clip_leaves_fully_inside_boxes_refuted. Everything else is proved."
  },
  {
   "property": "C05",
   "status": "proved",
   "theorems": [
    "C05_fraction_is_a_fraction",
    "C05_fraction_inside_is_zero",
    "C05_fraction_outside_is_one"
   ],
   "note": ""
  },
  {
   "property": "C06",
   "status": "proved",
   "theorems": [
    "C06_boxes_removed_by_own_fraction",
    "C06_smaller_threshold_removes_more",
    "C06_keypoint_clip_keeps_exactly_inside",
    "C06_remove_out_of_image_flags"
   ],
   "note": ""
  },
  {
   "property": "C07",
   "status": "proved",
   "theorems": [
    "C07_shifts_add_up",
    "C07_shift_back",
    "C07_shift_moves_every_box",
    "C07_shift_moves_every_keypoint",
    "C07_legacy_shift_arguments",
    "C07_shift_preserves_sizes",
    "C07_shift_preserves_iou",
    "C07_extend_grows_each_side"
   ],
   "note": ""
  },
  {
   "property": "C08",
   "status": "proved",
   "theorems": [
    "C08_boxes_keypoints_round_trip",
    "C08_transformed_corners_give_smallest_box",
    "C08_no_mixing_between_boxes",
    "C08_wrong_keypoint_count_rejected",
    "C08_point_soup_gives_smallest_box"
   ],
   "note": ""
  },
  {
   "property": "C09",
   "status": "partial",
   "theorems": [
    "C09_padded_extraction_is_the_rounded_box_partial",
    "C09_extraction_inside_the_image",
    "C09_whole_image_box_extracts_whole_image_refuted",
    "C09_pad_max_keeps_content_in_place_partial",
    "C09_pad_max_keeps_content_in_place_refuted",
    "C09_unpadded_inside",
    "C09_unpadded_outside_gives_zeros_partial",
    "C09_unpadded_outside_gives_zeros_refuted"
   ],
   "note": "Holds except for three defects, each shown by a _refuted theorem: boxes inside the image that round to the far border lose the last row/column; pad_max shifts content when the box starts further than pad_max above/left of the image; pad=False accepts boxes above the image because of a lexicographic tuple comparison."
  },
  {
   "property": "C10",
   "status": "proved",
   "theorems": [
    "C10_amounts_for_one_axis",
    "C10_cropped_image_is_window",
    "C10_enough_pixels_means_exactly_as_requested",
    "C10_sampled_amounts_are_applied_exactly"
   ],
   "note": ""
  },
  {
   "property": "C11",
   "status": "proved",
   "theorems": [
    "C11_padding",
    "C11_negative_amounts_rejected"
   ],
   "note": ""
  },
  {
   "property": "C12",
   "status": "proved",
   "theorems": [
    "C12_image_and_keypoints_move_together",
    "C12_keep_size_scales_both",
    "C12_maps_of_image_size_move_like_the_image",
    "C12_maps_of_other_size_follow_up_to_rounding"
   ],
   "note": ""
  },
  {
   "property": "C13",
   "status": "proved",
   "theorems": [
    "C13_padding_to_multiples",
    "C13_cropping_to_multiples",
    "C13_valid_multiples_accepted",
    "C13_nonpositive_multiples_rejected",
    "C13_augmenter_crops_to_multiples_at_any_position",
    "C13_augmenter_pads_to_multiples_at_any_position"
   ],
   "note": ""
  },
  {
   "property": "C14",
   "status": "proved",
   "theorems": [
    "C14_padding_to_aspect_ratio",
    "C14_padding_to_square",
    "C14_cropping_to_aspect_ratio",
    "C14_valid_ratios_accepted"
   ],
   "note": ""
  },
  {
   "property": "C15",
   "status": "partial",
   "theorems": [
    "C15_padding_reaches_power_partial",
    "C15_cropping_reaches_power_partial",
    "C15_padding_minimal_if_logarithm_exact",
    "C15_padding_is_minimal_at_powers_refuted",
    "C15_allow_zero_exponent_keeps_size_one_refuted",
    "C15_bad_bases_rejected"
   ],
   "note": "Floating point logarithm is an oracle assumed accurate to 2^-46 for sizes up to 2^40. Minimality fails at exact powers (C15_padding_is_minimal_at_powers_refuted), and allow_zero_exponent pads size 1 (C15_allow_zero_exponent_keeps_size_one_refuted)."
  },
  {
   "property": "C16",
   "status": "proved",
   "theorems": [
    "C16_pad_to_fixed_size",
    "C16_crop_to_fixed_size",
    "C16_pad_positions",
    "C16_crop_positions"
   ],
   "note": ""
  },
  {
   "property": "C17",
   "status": "partial",
   "theorems": [
    "C17_target_size",
    "C17_value_of_one_side",
    "C17_valid_specifications_accepted",
    "C17_keep_aspect_ratio_never_empties_refuted",
    "C17_maps_follow_their_image"
   ],
   "note": "keep-aspect-ratio can produce an empty axis: C17_keep_aspect_ratio_never_empties_refuted."
  },
  {
   "property": "C18",
   "status": "proved",
   "theorems": [
    "C18_fliplr_mirrors_columns",
    "C18_flipud_mirrors_rows",
    "C18_flip_twice_restores_image",
    "C18_fliplr_coordinates",
    "C18_flipud_coordinates",
    "C18_points_follow_their_pixel_lr",
    "C18_points_follow_their_pixel_ud",
    "C18_boxes_are_mirrored_and_stay_proper",
    "C18_fliplr_row_decision",
    "C18_flipud_row_decision",
    "C18_batch_flipped_twice_is_restored"
   ],
   "note": ""
  },
  {
   "property": "C19",
   "status": "proved",
   "theorems": [
    "C19_worker_seeds_are_valid",
    "C19_close_batches_get_different_seeds",
    "C19_global_and_augmenter_seeds_differ"
   ],
   "note": ""
  },
  {
   "property": "C20",
   "status": "partial",
   "theorems": [
    "C20_ids_are_consecutive",
    "C20_ids_are_unique",
    "C20_during_running_imap_refuted",
    "C20_after_abandoned_imap_refuted"
   ],
   "note": "Proved for sequences of completed calls followed by a running imap_batches. Interleaving map_batches with a running imap_batches, or abandoning an imap_batches, produces duplicate ids (C20_during_running_imap_refuted, C20_after_abandoned_imap_refuted)."
  },
  {
   "property": "C21",
   "status": "partial",
   "theorems": [
    "C21_pool_schedule_independent",
    "C21_branch_with_own_rng_refuted"
   ],
   "note": "Proved for augmenter trees whose branches do not own an RNG; C21_branch_with_own_rng_refuted shows that a branch (Sometimes, WithChannels, ...) that is itself a random augmenter with its own RNG is never reseeded by the worker, so results then depend on the schedule."
  },
  {
   "property": "C22",
   "status": "partial",
   "theorems": [
    "C22_buffer_bound",
    "C22_buffer_bound_k_refuted",
    "C22_results_in_order",
    "C22_results_at_most_once",
    "C22_all_results_at_the_end",
    "C22_runs_end_with_all_results",
    "C22_schedules_are_finite",
    "C22_chunks_larger_than_buffer_refuted"
   ],
   "note": "The bound is k+1, not k: the next batch is loaded before the buffer slot is acquired (C22_buffer_bound_k_refuted). chunksize > output_buffer_size deadlocks (C22_chunks_larger_than_buffer_refuted). Order, at-most-once, completeness and progress are proved for every schedule."
  },
  {
   "property": "C23",
   "status": "partial",
   "theorems": [
    "C23_delivered_at_most_once",
    "C23_complete_with_processes",
    "C23_complete_with_threads_refuted",
    "C23_none_is_final",
    "C23_progress",
    "C23_finitely_many_steps",
    "C23_no_end_after_crash",
    "C23_progress_after_crash_refuted"
   ],
   "note": "Completeness is proved for loading processes; with loading threads (the default) a batch can be lost (C23_complete_with_threads_refuted). An exception in an augmentation worker blocks get_batch (C23_progress_after_crash_refuted). At-most-once, finality of None and progress without crashes are proved. Queue capacities are not modelled."
  },
  {
   "property": "C24",
   "status": "proved",
   "theorems": [
    "C24_max_pool_is_blockwise_max",
    "C24_min_pool_is_blockwise_min",
    "C24_blocks_of_padded_image",
    "C24_fast_path_agrees"
   ],
   "note": ""
  },
  {
   "property": "C25",
   "status": "proved",
   "theorems": [
    "C25_table_applied_per_channel",
    "C25_other_tables_rejected"
   ],
   "note": ""
  },
  {
   "property": "C26",
   "status": "partial",
   "theorems": [
    "C26_every_image_in_its_cell",
    "C26_number_of_rows_and_columns",
    "C26_given_columns_refuted"
   ],
   "note": "Placement is proved for all calls; given both rows and cols, cols is ignored (C26_given_columns_refuted)."
  },
  {
   "property": "C27",
   "status": "proved",
   "theorems": [
    "C27_subselect_and_invert",
    "C27_out_of_range_raises"
   ],
   "note": ""
  },
  {
   "property": "C28",
   "status": "proved",
   "theorems": [
    "C28_some_of_applies_n_children",
    "C28_n_from_a_range",
    "C28_n_none_means_all",
    "C28_one_of_applies_one_child"
   ],
   "note": ""
  },
  {
   "property": "C29",
   "status": "proved",
   "theorems": [
    "C29_sequential_applies_each_child_once",
    "C29_nested_sequences_concatenate"
   ],
   "note": ""
  },
  {
   "property": "C30",
   "status": "proved",
   "theorems": [
    "C30_sometimes_partitions_rows",
    "C30_samples_are_zero_or_one"
   ],
   "note": ""
  },
  {
   "property": "C31",
   "status": "partial",
   "theorems": [
    "C31_remove_exactly_matching",
    "C31_find_exactly_matching",
    "C31_branch_itself_refuted"
   ],
   "note": "find/remove are exact on everything reachable through the children lists; an augmenter that is itself a branch is neither found nor removed (C31_branch_itself_refuted)."
  },
  {
   "property": "C32",
   "status": "partial",
   "theorems": [
    "C32_columns_start_from_same_state",
    "C32_columns_together_or_separately",
    "C32_prefetched_parameters_refuted"
   ],
   "note": "Proved without prefetching and for deterministic trees. With prefetched parameters the columns of one batch can get different samples (C32_prefetched_parameters_refuted)."
  },
  {
   "property": "C33",
   "status": "partial",
   "theorems": [
    "C33_deterministic_repeats",
    "C33_original_only_advances",
    "C33_converting_deterministic_advances_refuted"
   ],
   "note": "Proved; additionally, converting an already deterministic augmenter changes what that augmenter returns (C33_converting_deterministic_advances_refuted)."
  },
  {
   "property": "C34",
   "status": "partial",
   "theorems": [
    "C34_seeding_forgets_history",
    "C34_every_augmenter_its_own_stream",
    "C34_branch_itself_refuted"
   ],
   "note": "Proved for trees whose branches are lists; a branch that draws random numbers itself is not reached by seed_ (C34_branch_itself_refuted)."
  },
  {
   "property": "C35",
   "status": "proved",
   "theorems": [
    "C35_deactivated_changes_nothing",
    "C35_empty_batch_changes_nothing",
    "C35_no_propagation_no_children",
    "C35_hidden_columns_reappear",
    "C35_columns_not_propagated_reappear"
   ],
   "note": ""
  },
  {
   "property": "C36",
   "status": "proved",
   "theorems": [
    "C36_children_get_and_change_only_selected_channels",
    "C36_no_selection_means_all",
    "C36_empty_selection_is_identity",
    "C36_constructor_argument",
    "C36_constructor_argument_none",
    "C36_other_data_follow_the_majority",
    "C36_succeeds_for_existing_channels",
    "C36_missing_channel_raises"
   ],
   "note": ""
  },
  {
   "property": "C37",
   "status": "partial",
   "theorems": [
    "C37_only_listed_channels_move",
    "C37_all_channels_permuted",
    "C37_single_channel_unchanged",
    "C37_missing_channel_raises",
    "C37_augmenter_shuffles_per_image",
    "C37_repeated_channel_refuted"
   ],
   "note": "Exact for channel lists without repetitions; a repeated channel loses another one (C37_repeated_channel_refuted)."
  },
  {
   "property": "C38",
   "status": "partial",
   "theorems": [
    "C38_forms_are_restored_partial",
    "C38_identity_returns_the_input_partial",
    "C38_wrong_number_of_images_raises",
    "C38_arrays_for_several_images_refuted",
    "C38_mixed_dtypes_refuted",
    "C38_inverted_boxes_refuted",
    "C38_images_come_back",
    "C38_image_lists_keep_their_form",
    "C38_image_arrays_become_lists"
   ],
   "note": "Proved for all input forms except arrays for several images (restoring raises, C38_arrays_for_several_images_refuted), lists of arrays with different dtypes (C38_mixed_dtypes_refuted) and inverted boxes (C38_inverted_boxes_refuted); coordinates in array forms have to be float32 numbers."
  },
  {
   "property": "C39",
   "status": "proved",
   "theorems": [
    "C39_exactly_the_manhattan_ball",
    "C39_different_cells_different_points",
    "C39_negative_steps_raise"
   ],
   "note": ""
  },
  {
   "property": "C40",
   "status": "partial",
   "theorems": [
    "C40_positions_recovered",
    "C40_outside_not_found_partial",
    "C40_outside_not_found_refuted",
    "C40_nearest_is_unique",
    "C40_even_size_raises",
    "C40_empty_image_raises"
   ],
   "note": "Positions inside the image are recovered; keypoints right of/below the image are painted and found again with low thresholds because the painted square is clipped to the last column (C40_outside_not_found_refuted)."
  },
  {
   "property": "C41",
   "status": "partial",
   "theorems": [
    "C41_open_line",
    "C41_closed_line",
    "C41_short_lines_unchanged",
    "C41_gaps_below_twice_max_distance_partial",
    "C41_by_distance_succeeds",
    "C41_max_distance_refuted"
   ],
   "note": "Gaps are below twice max_distance (C41_gaps_below_twice_max_distance_partial), not below max_distance (C41_max_distance_refuted)."
  },
  {
   "property": "C42",
   "status": "partial",
   "theorems": [
    "C42_values_in_range_come_back",
    "C42_values_outside_are_clipped_partial",
    "C42_clipping_refuted",
    "C42_inverting_twice_restores",
    "C42_uint8_comes_back",
    "C42_normalization_there_and_back",
    "C42_normalization_is_linear",
    "C42_copies_are_equal"
   ],
   "note": "Arithmetic is exact except for the uint8 round trip, which includes the float32 roundings. Only the first 50 components decide about clipping (C42_clipping_refuted)."
  },
  {
   "property": "C43",
   "status": "partial",
   "theorems": [
    "C43_ids_come_back",
    "C43_accepted_maps_come_back",
    "C43_negative_ids_raise_partial",
    "C43_negative_ids_raise_refuted",
    "C43_wide_dtypes_raise",
    "C43_float_2d_is_thresholded",
    "C43_float_3d_takes_the_largest_channel",
    "C43_copies_are_equal"
   ],
   "note": "Only the first 100 components are tested for negative ids (C43_negative_ids_raise_refuted)."
  },
  {
   "property": "C44",
   "status": "partial",
   "theorems": [
    "C44_float_to_int_saturates_partial",
    "C44_int_to_int_saturates",
    "C44_restoring_saturates_every_value",
    "C44_64_bit_source_raises",
    "C44_same_dtype_is_identity",
    "C44_widening_int_is_lossless",
    "C44_widening_int_to_float_is_lossless",
    "C44_widening_float_is_lossless",
    "C44_saturation_refuted"
   ],
   "note": "Saturation is proved whenever the largest value of the integer dtype is a float of the source dtype; float16->int16, float32->int32/uint32, float64->int64/uint64 are refuted (C44_saturation_refuted): the clip bound rounds up and astype overflows. Booleans, infinities, NaN and subnormals are not modelled."
  },
  {
   "property": "C45",
   "status": "proved",
   "theorems": [
    "C45_flatten_yields_leaves_in_order"
   ],
   "note": ""
  },
  {
   "property": "C46",
   "status": "proved",
   "theorems": [
    "C46_point_lies_on_both_lines",
    "C46_false_iff_parallel",
    "C46_point_is_unique"
   ],
   "note": ""
  },
  {
   "property": "C47",
   "status": "proved",
   "theorems": [
    "C47_exactly_the_requested_interval",
    "C47_non_empty_intervals_of_the_dtype_succeed",
    "C47_empty_intervals_raise",
    "C47_same_on_old_and_new_numpy",
    "C47_generated_seeds"
   ],
   "note": ""
  },
  {
   "property": "C48",
   "status": "proved",
   "theorems": [
    "C48_prefetched_samples_are_an_unbroken_stream",
    "C48_other_draws_come_directly_from_the_rng"
   ],
   "note": ""
  },
  {
   "property": "C49",
   "status": "partial",
   "theorems": [
    "C49_global_seed_forgets_other_augmenters",
    "C49_fresh_pipelines_reproducible",
    "C49_used_augmenters_refuted"
   ],
   "note": "Augmenters used before still hand out samples prefetched before imgaug.seed (C49_used_augmenters_refuted)."
  },
  {
   "property": "C50",
   "status": "partial",
   "theorems": [
    "C50_copy_draws_the_same_partial",
    "C50_copies_do_not_influence_each_other",
    "C50_copy_after_one_draw_refuted",
    "C50_use_state_of_draws_the_same",
    "C50_equal_rngs_draw_the_same",
    "C50_copy_unless_global"
   ],
   "note": "RNG.copy resets the cached half of a 64 bit number, so a copy taken after an odd number of 32 bit draws differs (C50_copy_after_one_draw_refuted); everything else is proved. numpy's bit generators are an arbitrary state machine."
  },
  {
   "property": "C51",
   "status": "proved",
   "theorems": [
    "C51_temporary_seed_leaves_no_trace"
   ],
   "note": ""
  },
  {
   "property": "C52",
   "status": "proved",
   "theorems": [
    "C52_derived_rngs_are_new_and_reproducible",
    "C52_advance",
    "C52_seeds_on_old_numpy"
   ],
   "note": ""
  },
  {
   "property": "C53",
   "status": "partial",
   "theorems": [
    "C53_random_floats_in_unit_interval_partial",
    "C53_below_one_on_old_numpy_refuted"
   ],
   "note": "On old numpy float64 samples close to 1 are rounded to 1 (C53_below_one_on_old_numpy_refuted)."
  },
  {
   "property": "C54",
   "status": "partial",
   "theorems": [
    "C54_segmap_operations_keep_form_partial",
    "C54_heatmap_operations_keep_form_refuted"
   ],
   "note": "Proved for segmentation maps; heatmaps lose the information that their array was two-dimensional (C54_heatmap_operations_keep_form_refuted)."
  },
  {
   "property": "C55",
   "status": "partial",
   "theorems": [
    "C55_every_value_is_mirrored",
    "C55_twice_is_the_identity",
    "C55_threshold_selects_partial",
    "C55_fractional_threshold_refuted",
    "C55_negative_threshold_refuted",
    "C55_solarize_partial",
    "C55_results_fit_the_dtype",
    "C55_history_does_not_matter",
    "C55_bad_bounds_raise",
    "C55_floats_are_mirrored",
    "C55_floats_twice_is_the_identity"
   ],
   "note": "uint8 thresholds have to be whole numbers in 0..256: fractional and negative thresholds are refuted (C55_fractional_threshold_refuted, C55_negative_threshold_refuted). Floats are exact numbers."
  },
  {
   "property": "C56",
   "status": "partial",
   "theorems": [
    "C56_add_to_uint8",
    "C56_add_elementwise_to_uint8",
    "C56_whole_amounts_are_exact",
    "C56_add_to_other_integers_partial",
    "C56_extreme_amounts_refuted",
    "C56_some_amounts_raise_refuted"
   ],
   "note": "uint8 proved completely; other dtypes for integer amounts away from the limits of the intermediate dtype. Wrapping at these limits and rejected combinations of dtypes are refuted."
  },
  {
   "property": "C57",
   "status": "partial",
   "theorems": [
    "C57_multiply_uint8_partial",
    "C57_multiply_elementwise_uint8",
    "C57_size_independence_refuted",
    "C57_python_numbers_refuted",
    "C57_masks_keep_or_zero",
    "C57_pixelwise_masks"
   ],
   "note": "uint8 only; results depend on the image size (C57_size_independence_refuted) and Python numbers raise for small images (C57_python_numbers_refuted)."
  },
  {
   "property": "C58",
   "status": "proved",
   "theorems": [
    "C58_outside_stays",
    "C58_constant_fill",
    "C58_gaussian_fill",
    "C58_unknown_modes",
    "C58_areas",
    "C58_outside_all_areas",
    "C58_last_area_decides",
    "C58_batches"
   ],
   "note": "numpy's conversion of fill values to the dtype and the noise are parameters; coordinates are exact."
  },
  {
   "property": "C59",
   "status": "partial",
   "theorems": [
    "C59_components",
    "C59_pixels",
    "C59_function",
    "C59_wrong_numbers_raise",
    "C59_fractional_masks_refuted"
   ],
   "note": "Integer and boolean images. Masks that are not binary make the augmenter draw the wrong number of samples (C59_fractional_masks_refuted)."
  },
  {
   "property": "C60",
   "status": "partial",
   "theorems": [
    "C60_channels",
    "C60_kept_channels",
    "C60_no_channels_refuted",
    "C60_shapes_without_channels_refuted",
    "C60_total_dropout"
   ],
   "note": "Images without channels lose their annotations whatever nb_keep_channels is (C60_no_channels_refuted); batches without images and with (H, W) shapes raise (C60_shapes_without_channels_refuted)."
  },
  {
   "property": "C61",
   "status": "partial",
   "theorems": [
    "C61_uint8",
    "C61_uniform_weights",
    "C61_same_images",
    "C61_same_images_masked_refuted",
    "C61_background_untouched_partial",
    "C61_background_untouched_refuted",
    "C61_first_weight_checked",
    "C61_weights_checked_refuted",
    "C61_other_integers",
    "C61_booleans",
    "C61_wrong_sizes_raise"
   ],
   "note": "Weighted mean up to 1 (uint8) or 1/2; exact at 0 and 1. Refuted: with a mask, identical uint8 images do not blend to themselves (1 becomes 0, 3 becomes 4); image_bg is overwritten by masks on images below 64*64 pixels; only the first alpha is range-checked."
  },
  {
   "property": "C62",
   "status": "partial",
   "theorems": [
    "C62_constant_weights",
    "C62_points_inside",
    "C62_points_outside_refuted",
    "C62_either_or",
    "C62_changed_counts_raise",
    "C62_maps",
    "C62_same_branch_refuted"
   ],
   "note": "Refuted: keypoints outside of the image become their rounded input position, whatever the branches do; at mask value 1/2 maps and points follow different branches."
  },
  {
   "property": "C63",
   "status": "partial",
   "theorems": [
    "C63_gradient",
    "C63_inverted_gradient_refuted",
    "C63_grid",
    "C63_grid_too_few_values",
    "C63_checkerboard",
    "C63_class_ids",
    "C63_boxes",
    "C63_inverted_masks",
    "C63_values_dealt_out"
   ],
   "note": "Refuted for gradients with end before start: the result leaves [min_value, max_value]."
  },
  {
   "property": "C64",
   "status": "partial",
   "theorems": [
    "C64_arrays",
    "C64_arrays_compose",
    "C64_keep_size",
    "C64_maps",
    "C64_batches",
    "C64_keypoints",
    "C64_pixels_and_points",
    "C64_keypoints_compose",
    "C64_points_stay",
    "C64_inside_stays_inside_refuted",
    "C64_boxes",
    "C64_empty_images_raise"
   ],
   "note": "cv2's resize is a parameter of which only the output size is used. Refuted: a keypoint with y = 0 counts as inside of the image but lies outside after a quarter turn (x' = height). keep_size with keypoints on empty images raises."
  },
  {
   "property": "C65",
   "status": "partial",
   "theorems": [
    "C65_destinations",
    "C65_no_steps",
    "C65_one_step",
    "C65_max_steps_refuted",
    "C65_pixels",
    "C65_no_pixel_lost",
    "C65_sizes_refused",
    "C65_keypoints",
    "C65_augmenter",
    "C65_maps",
    "C65_without_padding"
   ],
   "note": "Everything except the documented meaning of max_steps, which is refuted: steps are counted per position, so for max_steps >= 2 a cell can travel further than max_steps (C65_max_steps_refuted)."
  },
  {
   "property": "C66",
   "status": "partial",
   "theorems": [
    "C66_described",
    "C66_total",
    "C66_uniform",
    "C66_discrete_uniform",
    "C66_list",
    "C66_clip",
    "C66_signs",
    "C66_reroll_refuted",
    "C66_random_sign",
    "C66_discretize",
    "C66_discretize_large_refuted",
    "C66_arithmetic",
    "C66_aggregate_range"
   ],
   "note": "All modelled parameters, any nesting, provided no in-place parameter is applied to a deterministic list (C68). Refuted: rerolled signs for sizes with several axes; Discretize of float32 samples beyond int16. Not modelled: Choice over parameters, TruncatedNormal, Laplace, ChiSquare, Weibull, FromLowerResolution, Power, Sigmoid, SimplexNoise."
  },
  {
   "property": "C67",
   "status": "partial",
   "theorems": [
    "C67_continuous_accepts",
    "C67_discrete_accepts",
    "C67_probability_accepts",
    "C67_continuous_draws",
    "C67_discrete_draws",
    "C67_probability_draws",
    "C67_probability_kept",
    "C67_small_probability_refuted",
    "C67_kernel_draws",
    "C67_kernel_ranges",
    "C67_kernel_mixed_refuted"
   ],
   "note": "Refuted: probabilities below 1e-6 never fire; a kernel size of one integer and one float is not a range. Empty lists are accepted and fail on drawing."
  },
  {
   "property": "C68",
   "status": "partial",
   "theorems": [
    "C68_unchanged",
    "C68_unchanged_refuted"
   ],
   "note": "Proved if no in-place parameter works on a deterministic list, refuted for Clip, ForceSign and Divide on them."
  },
  {
   "property": "C69",
   "status": "partial",
   "theorems": [
    "C69_growing",
    "C69_history_refuted",
    "C69_smaller_refuted"
   ],
   "note": "Proved while sizes do not shrink; refuted in general."
  },
  {
   "property": "C70",
   "status": "partial",
   "theorems": [
    "C70_aligned",
    "C70_pixels_and_points",
    "C70_fit_partial",
    "C70_fit_refuted"
   ],
   "note": "Pixels and points without fit_output; with fit_output (C70_fit_partial) the matrices agree up to a constant offset, and the refutation shows that the offset is visible (1 px for a quarter turn). cos, sin, tanh are an abstract record, the resampler is a parameter of which only exactly hit pixels are used."
  },
  {
   "property": "C71",
   "status": "partial",
   "theorems": [
    "C71_keypoints",
    "C71_paths",
    "C71_boxes",
    "C71_pixels",
    "C71_shift",
    "C71_centre",
    "C71_rigid",
    "C71_shear_refuted",
    "C71_shift_refuted"
   ],
   "note": "Rotation, scaling and translation mean what is documented, about the image centre. Refuted: shear uses tanh of the angle instead of tan; an x-translation of exactly 1e-4 drops the whole shift."
  },
  {
   "property": "C72",
   "status": "partial",
   "theorems": [
    "C72_canvas",
    "C72_shapes",
    "C72_shapes_refuted",
    "C72_points_refuted"
   ],
   "note": "Canvas contains the pixel grid tightly, all augmentables agree on the shape. Refuted: near-identity transformations change the shape of coordinates only; points in the last pixel row leave the canvas."
  },
  {
   "property": "C73",
   "status": "partial",
   "theorems": [
    "C73_maps_and_points",
    "C73_aspect_refuted"
   ],
   "note": "Maps with the aspect ratio of the image; refuted for others."
  },
  {
   "property": "C74",
   "status": "partial",
   "theorems": [
    "C74_samples",
    "C74_defaults",
    "C74_rejects",
    "C74_shear_refuted"
   ],
   "note": "Refuted: a tuple for shear draws one value for both axes although the parameter's documentation promises two."
  },
  {
   "property": "C75",
   "status": "proved",
   "theorems": [
    "C75_gamma_order",
    "C75_gamma_ends",
    "C75_gamma_one",
    "C75_sigmoid_order",
    "C75_log_order",
    "C75_linear_order",
    "C75_linear_value",
    "C75_linear_one",
    "C75_empty"
   ],
   "note": "Power, exp and log2 are parameters assumed to be monotone; float32 arithmetic is exact rounding."
  },
  {
   "property": "C76",
   "status": "partial",
   "theorems": [
    "C76_order",
    "C76_levels",
    "C76_ends",
    "C76_input_partial",
    "C76_input_refuted",
    "C76_mask_refuted",
    "C76_white_refuted"
   ],
   "note": "Refuted: the input of the non-in-place function changes for small images; masks are ignored unless there are 1 or 3 channels; without PIL the brightest pixel need not become 255."
  },
  {
   "property": "C77",
   "status": "partial",
   "theorems": [
    "C77_order",
    "C77_stretch",
    "C77_white_refuted"
   ],
   "note": "Path without PIL (cutoff 0, or not two-dimensional and not three channels). Refuted: white may become 254."
  },
  {
   "property": "C78",
   "status": "partial",
   "theorems": [
    "C78_order",
    "C78_bins_partial",
    "C78_palette",
    "C78_posterize",
    "C78_all_values",
    "C78_errors",
    "C78_black_refuted",
    "C78_bins_refuted"
   ],
   "note": "Refuted: 255 bins give black images; values on a bin's lower end may fall into the bin below."
  },
  {
   "property": "C79",
   "status": "partial",
   "theorems": [
    "C79_transform",
    "C79_restore",
    "C79_projection",
    "C79_full_turn",
    "C79_parameters",
    "C79_separate",
    "C79_common",
    "C79_first_sample",
    "C79_range_refuted"
   ],
   "note": "Images in HSV already. Refuted: samples out of range are not rejected."
  },
  {
   "property": "C80",
   "status": "partial",
   "theorems": [
    "C80_parts_are_pieces_inside",
    "C80_parts_lie_on_the_line",
    "C80_inside_is_unchanged",
    "C80_empty",
    "C80_clip_on_image",
    "C80_assumption_can_be_met",
    "C80_no_pixels_refuted"
   ],
   "note": "shapely's intersection is a parameter assumed to be correct for the four edges of the image; an intersection function that meets the assumption for all inputs is defined and proved correct. Refuted for images without pixels."
  },
  {
   "property": "C81",
   "status": "partial",
   "theorems": [
    "C81_points_inside_are_kept",
    "C81_edges_inside_are_kept",
    "C81_what_is_inside_is_kept",
    "C81_strip_refuted"
   ],
   "note": "Refuted for lines inside the strips of 1/1000 at the right and lower border."
  },
  {
   "property": "C82",
   "status": "partial",
   "theorems": [
    "C82_fully_within",
    "C82_partly_within",
    "C82_default",
    "C82_out_of_image",
    "C82_remove_out_of_image",
    "C82_strip_refuted"
   ],
   "note": "Refuted for lines that are visible only inside the strips."
  },
  {
   "property": "C83",
   "status": "partial",
   "theorems": [
    "C83_fill_what_was_read",
    "C83_fill",
    "C83_atomic_refuted",
    "C83_keypoints",
    "C83_xy_arrays",
    "C83_shift"
   ],
   "note": "Refuted: fill_from_xy_array_ is not atomic."
  },
  {
   "property": "C84",
   "status": "partial",
   "theorems": [
    "C84_closest_point",
    "C84_change_first_point",
    "C84_point_lost_refuted",
    "C84_change_first_point_by_coords",
    "C84_clip",
    "C84_clip_nothing",
    "C84_clip_small",
    "C84_out_of_image",
    "C84_out_of_image_empty"
   ],
   "note": "Intersection of polygons is a parameter. Refuted: a point is lost if neighbouring points coincide."
  },
  {
   "property": "C85",
   "status": "proved",
   "theorems": [
    "C85_fraction",
    "C85_clipping_does_not_lengthen",
    "C85_remove_by_fraction",
    "C85_extreme_fractions"
   ],
   "note": "Exact real lengths; axioms of the real numbers of the standard library."
  },
  {
   "property": "C86",
   "status": "partial",
   "theorems": [
    "C86_sizes",
    "C86_three_rounds",
    "C86_corners",
    "C86_elongated_refuted"
   ],
   "note": "Sizes for all jitter; the corners for jitter that is small compared to the shape. Refuted: for elongated images a corner is used twice and another one is lost."
  },
  {
   "property": "C87",
   "status": "proved",
   "theorems": [
    "C87_region_fills_output",
    "C87_determined"
   ],
   "note": "For small jitter. cv2.getPerspectiveTransform is a parameter assumed to take the four points to the four points if no three are on a line; a solver is defined and proved to do so."
  },
  {
   "property": "C88",
   "status": "partial",
   "theorems": [
    "C88_keypoints",
    "C88_same_shape",
    "C88_pixel_index",
    "C88_centre_refuted"
   ],
   "note": "cv2.warpPerspective is a parameter assumed to put exactly hit pixels where the matrix says (a warp that does is defined). Refuted: pixel centres and keypoints drift apart by up to half a pixel times the local enlargement."
  },
  {
   "property": "C89",
   "status": "partial",
   "theorems": [
    "C89_maps_follow",
    "C89_shapes",
    "C89_small_map_refuted"
   ],
   "note": "For small jitter on both shapes and regions of at least two pixels, without fit_output. Refuted for maps of low resolution."
  },
  {
   "property": "C90",
   "status": "partial",
   "theorems": [
    "C90_whole_image",
    "C90_horizon_refuted"
   ],
   "note": "Provided the corners of the image land on a convex quadrilateral. Refuted in general: the horizon may cross the image."
  },
  {
   "property": "C91",
   "status": "proved",
   "theorems": [
    "C91_images",
    "C91_keypoints",
    "C91_heatmaps",
    "C91_segmaps"
   ],
   "note": "The children are an arbitrary function of batches. cv2.resize gives arbitrary values; that its result has the requested size is part of the model."
  },
  {
   "property": "C92",
   "status": "partial",
   "theorems": [
    "C92_succeeds",
    "C92_consistent",
    "C92_map_no_resize_refuted",
    "C92_integer_refuted",
    "C92_mixed_list_refuted",
    "C92_segmaps_as_images_refuted"
   ],
   "note": "Refuted: maps with NO_RESIZE keep the image size of the children; methods given as integers fail when mixed with names; segmentation maps cannot be resized like the images."
  },
  {
   "property": "C93",
   "status": "partial",
   "theorems": [
    "C93_array_stays_array",
    "C93_array_only_if_one_shape",
    "C93_empty_array_refuted"
   ],
   "note": "Refuted for an array of zero images."
  },
  {
   "property": "C94",
   "status": "proved",
   "theorems": [
    "C94_kernel_sizes",
    "C94_pooled_image",
    "C94_consistent",
    "C94_keypoints",
    "C94_map_arrays",
    "C94_keep_size"
   ],
   "note": "Images of MaxPooling and MinPooling with pixel values, one channel (all channels alike). AveragePooling and MedianPooling share the code for maps and coordinates."
  },
  {
   "property": "C95",
   "status": "partial",
   "theorems": [
    "C95_keypoint_near_pixel",
    "C95_pixel_refuted"
   ],
   "note": "At most half a pixel of the pooled image, exact for divisible sizes. Refuted: the keypoint may lie in the neighbouring pixel."
  },
  {
   "property": "C96",
   "status": "partial",
   "theorems": [
    "C96_numba",
    "C96_numpy",
    "C96_no_gaps",
    "C96_range",
    "C96_bool",
    "C96_gap_refuted",
    "C96_bool_mean_refuted"
   ],
   "note": "One channel (all channels alike); integer and bool dtypes; averages in exact arithmetic. Refuted: flags by id without numba if an id is missing; averages of bool images."
  },
  {
   "property": "C97",
   "status": "proved",
   "theorems": [
    "C97_idempotent"
   ],
   "note": ""
  },
  {
   "property": "C98",
   "status": "partial",
   "theorems": [
    "C98_cells",
    "C98_no_cells",
    "C98_mask_refuted"
   ],
   "note": "The KD tree is an argument assumed to return a nearest cell (argmin shows that this can be met). Refuted without numba: the mask is shifted if a cell has no pixel."
  },
  {
   "property": "C99",
   "status": "proved",
   "theorems": [
    "C99_grid",
    "C99_relative_grid",
    "C99_rectangles"
   ],
   "note": "Coordinates are exact rationals."
  },
  {
   "property": "C100",
   "status": "proved",
   "theorems": [
    "C100_samplers",
    "C100_rejects"
   ],
   "note": "Induction over nested samplers; the random number generator is an argument."
  },
  {
   "property": "C101",
   "status": "proved",
   "theorems": [
    "C101_uniform"
   ],
   "note": ""
  },
  {
   "property": "C102",
   "status": "proved",
   "theorems": [
    "C102_kept",
    "C102_extremes",
    "C102_argument"
   ],
   "note": "Binomial with probability 0 or 1 is an assumption about the generator."
  },
  {
   "property": "C103",
   "status": "partial",
   "theorems": [
    "C103_subsample",
    "C103_negative_refuted"
   ],
   "note": "Refuted for a negative maximum, which is accepted and removes one point."
  },
  {
   "property": "C104",
   "status": "partial",
   "theorems": [
    "C104_shape",
    "C104_averages",
    "C104_nothing_replaced",
    "C104_thin_images_raise",
    "C104_thin_refuted"
   ],
   "note": "cv2.resize gives arbitrary values of the requested size. Refuted: thin images larger than max_size raise AssertionError."
  },
  {
   "property": "C105",
   "status": "partial",
   "theorems": [
    "C105_shape",
    "C105_averages",
    "C105_thin_images_raise",
    "C105_thin_refuted"
   ],
   "note": "slic is an argument. Refuted: thin images larger than max_size raise AssertionError."
  },
  {
   "property": "C106",
   "status": "partial",
   "theorems": [
    "C106_forms_are_restored_partial",
    "C106_unchanged",
    "C106_number_of_images",
    "C106_keypoints_as_lines_refuted",
    "C106_tuple_of_points_refuted",
    "C106_closed_polygon_refuted",
    "C106_empty_array_refuted"
   ],
   "note": "Proved for all forms except those refuted: Keypoints as line strings, tuples of points as polygons, closed polygons, arrays without polygons. Augmentation is any function of the points of an object."
  },
  {
   "property": "C107",
   "status": "partial",
   "theorems": [
    "C107_heatmap_forms_are_restored",
    "C107_segmap_forms_are_restored",
    "C107_wrong_number_of_images_raises",
    "C107_other_dtypes_raise",
    "C107_documented_segmap_forms_refuted",
    "C107_dtype_is_restored"
   ],
   "note": "Proved for the forms with a channel axis; the documented forms without it are refuted. Heatmap objects are assumed to have the range 0 to 1 in the statements about whole batches."
  },
  {
   "property": "C108",
   "status": "proved",
   "theorems": [
    "C108_every_column_is_augmented_in_its_form",
    "C108_inputs_and_data_are_kept",
    "C108_augmented_batches_are_rejected"
   ],
   "note": "The augmentation of the normalized columns is any function of the content of images and maps and of the coordinates of the other augmentables (see C01 and following for the execution of augmenters)."
  },
  {
   "property": "C109",
   "status": "proved",
   "theorems": [
    "C109_results_match_the_arguments",
    "C109_nothing_changed",
    "C109_returned_batch",
    "C109_old_python",
    "C109_bad_calls_raise"
   ],
   "note": "Deprecation and duplicate warnings are left out."
  },
  {
   "property": "C110",
   "status": "partial",
   "theorems": [
    "C110_kth_result_from_kth_batch",
    "C110_every_form",
    "C110_background_results",
    "C110_line_strings_refuted",
    "C110_no_results_before"
   ],
   "note": "The processes are a transition system with load and receive events; the k-th call of the augmenter is an arbitrary function. Lists of line strings are refuted."
  },
  {
   "property": "C111",
   "status": "partial",
   "theorems": [
    "C111_passes_exactly_what_fits",
    "C111_otherwise_assertion_error",
    "C111_four_entries",
    "C111_number_of_items_of_empty_columns_refuted"
   ],
   "note": "Proved; the number of items of empty columns is refuted."
  },
  {
   "property": "C112",
   "status": "partial",
   "theorems": [
    "C112_lambda_applies_the_functions",
    "C112_lambda_raises_only_assertion_errors",
    "C112_lambda_without_functions",
    "C112_assert_lambda",
    "C112_boxes_follow_keypoints",
    "C112_line_strings_follow_keypoints",
    "C112_without_keypoint_function",
    "C112_short_results_refuted",
    "C112_given_boxes_are_ordered",
    "C112_new_boxes_are_ordered_refuted"
   ],
   "note": "Functions are arbitrary. The mode keypoints for polygons (polygon recoverer) is not modelled."
  },
  {
   "property": "C113",
   "status": "proved",
   "theorems": [
    "C113_remove",
    "C113_fraction_of_polygons",
    "C113_clip"
   ],
   "note": "Coordinates are exact rationals; shapely's intersection is a parameter with a stated contract."
  },
  {
   "property": "C114",
   "status": "partial",
   "theorems": [
    "C114_copies_sample_alike",
    "C114_by_position",
    "C114_by_name",
    "C114_augmenters_considered",
    "C114_raises_only",
    "C114_different_lengths",
    "C114_missing_name",
    "C114_global_source",
    "C114_unknown_matching",
    "C114_all_or_nothing_refuted",
    "C114_after_use_refuted",
    "C114_drawing_branch_refuted"
   ],
   "note": "Proved for plain branches and sources that have not prefetched samples; the other cases and atomicity on errors are refuted. RNG objects shared by several augmenters are not modelled."
  },
  {
   "property": "C115",
   "status": "proved",
   "theorems": [
    "C115_pixels",
    "C115_errors",
    "C115_dtypes",
    "C115_flat",
    "C115_averaging",
    "C115_one_kernel",
    "C115_augmenter"
   ],
   "note": "cv2.filter2D is modelled in exact arithmetic (correlation, BORDER_REFLECT_101, rounding half to even, saturation)."
  },
  {
   "property": "C116",
   "status": "proved",
   "theorems": [
    "C116_effects",
    "C116_alpha",
    "C116_zero",
    "C116_flat",
    "C116_float_blend",
    "C116_integer_blend",
    "C116_directed",
    "C116_directions",
    "C116_turn"
   ],
   "note": "Exact arithmetic; DirectedEdgeDetect over the reals, which brings in the axioms of the standard library's reals."
  },
  {
   "property": "C117",
   "status": "partial",
   "theorems": [
    "C117_average",
    "C117_average_range",
    "C117_forms",
    "C117_mixed_refuted",
    "C117_extra_ignored",
    "C117_sizes",
    "C117_median",
    "C117_gauss_size",
    "C117_gauss_monotone_refuted",
    "C117_gauss_backend",
    "C117_motion",
    "C117_motion_range"
   ],
   "note": "cv2.blur in exact arithmetic; cv2.medianBlur, cv2.GaussianBlur and scipy are not modelled beyond the sizes passed to them; the rotation in MotionBlur is a parameter with a stated contract. Monotonicity of the Gaussian size and mixed arguments are refuted."
  },
  {
   "property": "C118",
   "status": "partial",
   "theorems": [
    "C118_single",
    "C118_list",
    "C118_array",
    "C118_one_by_one",
    "C118_array_one_by_one",
    "C118_mixed_dtypes_refuted"
   ],
   "note": "That every image keeps its dtype is refuted for lists of one shape with different dtypes; everything else is proved."
  },
  {
   "property": "C119",
   "status": "proved",
   "theorems": [
    "C119_same_size",
    "C119_values",
    "C119_nearest",
    "C119_range",
    "C119_channels",
    "C119_automatic",
    "C119_segmentation_map",
    "C119_heatmap"
   ],
   "note": "cv2.resize is a parameter with the contract resizes/picks/averages of RszSpec.v. float16 is clipped but not rounded."
  },
  {
   "property": "C120",
   "status": "proved",
   "theorems": [
    "C120_accepted",
    "C120_errors",
    "C120_invalid",
    "C120_empty",
    "C120_no_images"
   ],
   "note": "cv2.resize is a parameter with the contract of RszSpec.v."
  },
  {
   "property": "C121",
   "status": "partial",
   "theorems": [
    "C121_pixels",
    "C121_exact_dtypes",
    "C121_list",
    "C121_accepted",
    "C121_errors",
    "C121_list_errors",
    "C121_square_size_refuted",
    "C121_raise_refuted",
    "C121_large_integers_refuted"
   ],
   "note": "The documented square size, raise_if_out_of_image and large integers are refuted; everything else is proved. Overflow of colours outside the dtype is not modelled."
  },
  {
   "property": "C122",
   "status": "partial",
   "theorems": [
    "C122_pixels",
    "C122_inside",
    "C122_list",
    "C122_accepted",
    "C122_errors",
    "C122_clipping_refuted"
   ],
   "note": "skimage's polygon_perimeter is modelled as the border of a rectangle. Values outside 0..255 under transparent boxes are refuted. Labels are not modelled."
  },
  {
   "property": "C123",
   "status": "partial",
   "theorems": [
    "C123_segmaps",
    "C123_heatmaps",
    "C123_refused",
    "C123_columns_refuted",
    "C123_thin_images_refuted"
   ],
   "note": "cv2.resize is a parameter (resizes, picks_by_position); the colour map is a function. Thin heatmaps are refuted."
  },
  {
   "property": "C124",
   "status": "proved",
   "theorems": [
    "C124_pixels",
    "C124_input",
    "C124_bytes",
    "C124_errors",
    "C124_no_pixels",
    "C124_list",
    "C124_list_lengths"
   ],
   "note": "OpenCV's conversions of one colour are parameters (cvt, gray)."
  },
  {
   "property": "C125",
   "status": "partial",
   "theorems": [
    "C125_blend_partial",
    "C125_alpha_ignored_refuted",
    "C125_gray_of_other_spaces_refuted",
    "C125_grayscale",
    "C125_batch",
    "C125_constructor",
    "C125_unchanged"
   ],
   "note": "Holds for views and for gray from RGB/BGR (C125_blend_partial, C125_grayscale); refuted for images of lists."
  },
  {
   "property": "C126",
   "status": "partial",
   "theorems": [
    "C126_multipliers",
    "C126_interpolation",
    "C126_images",
    "C126_augmenter",
    "C126_rgb",
    "C126_errors",
    "C126_temperatures_checked_refuted",
    "C126_input_kept_refuted",
    "C126_no_pixels"
   ],
   "note": "The table is the one of the source. The checks of later temperatures and the purity of change_color_temperature are refuted."
  },
  {
   "property": "C127",
   "status": "partial",
   "theorems": [
    "C127_with_colorspace",
    "C127_gray_refuted",
    "C127_with_brightness"
   ],
   "note": "The children are a parameter. GRAY as target is refuted."
  },
  {
   "property": "C128",
   "status": "partial",
   "theorems": [
    "C128_hue_and_saturation",
    "C128_angles",
    "C128_identity_refuted"
   ],
   "note": "The children are a parameter; the identity without children is refuted. Float32 arithmetic was compared with the exact one for all hues."
  },
  {
   "property": "C129",
   "status": "partial",
   "theorems": [
    "C129_kmeans",
    "C129_kmeans_centers",
    "C129_pixel_order",
    "C129_few_pixels",
    "C129_deterministic",
    "C129_kmeans_errors",
    "C129_shape",
    "C129_small_images",
    "C129_max_size",
    "C129_alpha_refuted",
    "C129_thin_images_refuted",
    "C129_channel_numbers",
    "C129_counts"
   ],
   "note": "cv2.kmeans and cv2.resize are parameters. Sizes int(size * max_size / side) are computed exactly. Alpha of resized images and thin images are refuted."
  },
  {
   "property": "C130",
   "status": "proved",
   "theorems": [
    "C130_length",
    "C130_concatenate",
    "C130_subdivide_path",
    "C130_subdivide_points",
    "C130_subdivide_nothing",
    "C130_subdivide_twice",
    "C130_box",
    "C130_box_empty",
    "C130_box_unique"
   ],
   "note": "Coordinates are rationals, lengths real numbers."
  },
  {
   "property": "C131",
   "status": "partial",
   "theorems": [
    "C131_pointwise_distances",
    "C131_pointwise_cases",
    "C131_distance_partial",
    "C131_distance_refuted",
    "C131_contains_partial",
    "C131_contains_refuted",
    "C131_almost_equals",
    "C131_almost_equals_empty",
    "C131_almost_equals_symmetric",
    "C131_same_path",
    "C131_same_path_cases",
    "C131_labels"
   ],
   "note": "shapely's distance of a point to a geometry is modelled by the formula of the foot of the perpendicular; proved to be the minimum. compute_distance and contains consider the corner points only (C131_distance_partial, C131_contains_partial); the full claims are refuted."
  },
  {
   "property": "C132",
   "status": "partial",
   "theorems": [
    "C132_area",
    "C132_area_values",
    "C132_subdivide",
    "C132_almost_equals",
    "C132_almost_equals_cases",
    "C132_almost_equals_iff",
    "C132_box",
    "C132_empty_refuted",
    "C132_points_kept_refuted"
   ],
   "note": "shapely's area is modelled by the shoelace formula. Empty polygons and the tolerance of the constructor are refuted."
  },
  {
   "property": "C133",
   "status": "proved",
   "theorems": [
    "C133_maps",
    "C133_from_maps",
    "C133_one_position",
    "C133_empty",
    "C133_round_trip",
    "C133_round_trip_exact"
   ],
   "note": "Distances are real numbers; coordinates rational."
  },
  {
   "property": "C134",
   "status": "proved",
   "theorems": [
    "C134_images",
    "C134_opencv",
    "C134_errors"
   ],
   "note": "cv2.Canny is a parameter; the theorem about its arguments compares any two detectors that agree on allowed inputs."
  },
  {
   "property": "C135",
   "status": "proved",
   "theorems": [
    "C135_landscape",
    "C135_lighter",
    "C135_landscape_errors",
    "C135_cloud",
    "C135_cloud_dtypes",
    "C135_density",
    "C135_intensity"
   ],
   "note": "Colour conversions and the power function are parameters; the noise of clouds is drawn by other augmenters (parameter)."
  },
  {
   "property": "C136",
   "status": "proved",
   "theorems": [
    "C136_snow",
    "C136_snow_monotone",
    "C136_rain",
    "C136_channels",
    "C136_sizes"
   ],
   "note": "Salt, gate, resizing, blurs and gamma contrast are parameters, assumed to map bytes to bytes. That the colour of drops is derived from a sum of components is documented as pseudo-random."
  },
  {
   "property": "C137",
   "status": "proved",
   "theorems": [
    "C137_gate_decides",
    "C137_overlap_raises",
    "C137_unknown_name_raises",
    "C137_all_strings",
    "C137_words_unique",
    "C137_library_gates_decide",
    "C137_order_irrelevant",
    "C137_only_uint8"
   ],
   "note": "float128 is assumed to exist. White space other than spaces is not modelled."
  },
  {
   "property": "C138",
   "status": "proved",
   "theorems": [
    "C138_common_dtype",
    "C138_values_kept",
    "C138_always_found",
    "C138_empty_raises",
    "C138_minimal_for_two",
    "C138_order_matters",
    "C138_increase",
    "C138_increase_raises",
    "C138_increase_keeps_values",
    "C138_increase_total"
   ],
   "note": "np.promote_types is modelled by its documented rules. Floats have no subnormals. Finding: the common dtype of three arrays depends on their order."
  },
  {
   "property": "C139",
   "status": "proved",
   "theorems": [
    "C139_batch",
    "C139_gate_first",
    "C139_no_channels_raise",
    "C139_integers",
    "C139_uint8",
    "C139_float64",
    "C139_small_floats",
    "C139_in_range",
    "C139_one_is_identity",
    "C139_zero_is_grey",
    "C139_monotone",
    "C139_dtypes"
   ],
   "note": "Computations in float64 are exact until converted to the image's dtype; results have to be in the range of float64. Finding: images without channels raise ValueError with per_channel."
  },
  {
   "property": "C140",
   "status": "proved",
   "theorems": [
    "C140_clahe_channels",
    "C140_clahe_empty",
    "C140_clahe_batch",
    "C140_clahe_refuses",
    "C140_intensity_only",
    "C140_histogram_equalization",
    "C140_histogram_refuses",
    "C140_constructor"
   ],
   "note": "OpenCV's conversions, CLAHE and equalizeHist are parameters. CLAHE is AllChannelsCLAHE as the function of the theorem about intensities; this composition is not written out."
  },
  {
   "property": "C141",
   "status": "proved",
   "theorems": [
    "C141_result",
    "C141_refuses",
    "C141_seeded",
    "C141_batch",
    "C141_batch_state",
    "C141_batch_error"
   ],
   "note": "The functions of the imagecorruptions library are a parameter."
  },
  {
   "property": "C142",
   "status": "partial",
   "theorems": [
    "C142_loop",
    "C142_turn",
    "C142_rearranges_refuted",
    "C142_severity",
    "C142_result",
    "C142_stages",
    "C142_passes"
   ],
   "note": "The Gaussian filter is a parameter. Findings: the exchange copies one pixel and loses the other (C142_rearranges_refuted); severities 0 to -4 are accepted (C142_severity). Bounds, origin of the pixels, borders, strengths 1 to 5 and the result's shape are proved."
  },
  {
   "property": "C143",
   "status": "proved",
   "theorems": [
    "C143_levels",
    "C143_signed",
    "C143_enhance",
    "C143_bits",
    "C143_threshold",
    "C143_cutout",
    "C143_crop",
    "C143_zero"
   ],
   "note": "Floats are exact. The augmenters themselves are those of other claims; the choice of augmenters is not modelled."
  },
  {
   "property": "C144",
   "status": "partial",
   "theorems": [
    "C144_fits",
    "C144_layout",
    "C144_larger_cells_refuted",
    "C144_bytes",
    "C144_uint8",
    "C144_monotone",
    "C144_ends",
    "C144_signed_refuted"
   ],
   "note": "Texts are sizes only; resizing is by the identity, which is what a row of the image's own height gives. Findings: signed integers are shown black (C144_signed_refuted), some larger cells raise AssertionError (C144_larger_cells_refuted). Layout and bytes are proved."
  },
  {
   "property": "C145",
   "status": "partial",
   "theorems": [
    "C145_files",
    "C145_names",
    "C145_batches",
    "C145_zero",
    "C145_documented_name_refuted"
   ],
   "note": "Drawing is a parameter; writing files succeeds. Finding: the latest image is in batch_latest.png, the documented latest.png is never written (C145_documented_name_refuted)."
  },
  {
   "property": "C146",
   "status": "partial",
   "theorems": [
    "C146_components",
    "C146_own_samples",
    "C146_similar_parameters_refuted"
   ],
   "note": "Parameters are told apart by their strings. Proved for lists of parameters with different strings; finding: parameters whose strings are equal though they differ share the samples of the last one (C146_similar_parameters_refuted)."
  },
  {
   "property": "C147",
   "status": "partial",
   "theorems": [
    "C147_refuses",
    "C147_picture",
    "C147_counts",
    "C147_large_images",
    "C147_saturation",
    "C147_batch",
    "C147_zero_prevalence_refuted",
    "C147_flat_images"
   ],
   "note": "OpenCV's median blur, mean shift, Canny and Laplacian, percentiles and colour conversions are parameters. Proved for positive edge prevalences; finding: edge_prevalence 0 is accepted but fails on all images (C147_zero_prevalence_refuted)."
  }
 ]
}
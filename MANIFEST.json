{
 "claims": [
  {
   "property": "C01",
   "status": "proved",
   "theorems": [
    "c01_prod_is_hamilton",
    "c01_prod_assoc",
    "c01_prod_unit_l",
    "c01_prod_unit_r",
    "c01_norm_multiplicative",
    "c01_conj_right_inverse",
    "c01_conj_left_inverse",
    "c01_conj_reverses_products"
   ],
   "note": ""
  },
  {
   "property": "C02",
   "status": "proved",
   "theorems": [
    "c02_apply_is_qu2om",
    "c02_apply_is_axis_angle_rotation",
    "c02_apply_is_sandwich",
    "c02_apply_composition",
    "c02_apply_preserves_dot",
    "c02_apply_preserves_handedness",
    "c02_apply_linear",
    "c02_conj_undoes",
    "c02_double_cover",
    "c02_identity_fixes"
   ],
   "note": ""
  },
  {
   "property": "C03",
   "status": "proved",
   "theorems": [
    "c03_std_nonneg",
    "c03_std_same_rotation",
    "c03_std_keeps_nonneg",
    "c03_std_idempotent",
    "c03_std_canonical",
    "c03_half_turns_have_two_representatives",
    "c03_prod_std",
    "c03_norm_unit",
    "c03_norm_direction",
    "c03_norm_fixes_unit",
    "c03_norm_std"
   ],
   "note": ""
  },
  {
   "property": "C04",
   "status": "proved",
   "theorems": [
    "c04_pos_real",
    "c04_pos_real_abs",
    "c04_triple",
    "c04_axis",
    "c04_angle_range",
    "c04_angle_is_rotation_angle"
   ],
   "note": ""
  },
  {
   "property": "C05",
   "status": "proved",
   "theorems": [
    "c05_slerp_unit_norm",
    "c05_slerp_start",
    "c05_slerp_end",
    "c05_slerp_constant_speed",
    "c05_slerp_defined"
   ],
   "note": ""
  },
  {
   "property": "C06",
   "status": "partial",
   "theorems": [
    "c06_rotate_sets_partial",
    "c06_rotate_sets_antiparallel_refuted",
    "c06_nearly_parallel_error",
    "c06_nearly_antiparallel_refuted"
   ],
   "note": "Holds when |s.f| < 0.999999 (proved as c06_rotate_sets_partial). Closer directions get the identity: nearly parallel ones are missed by at most sqrt(2e-6), nearly antiparallel ones by almost the diameter, and -s is never reached from s (refuted with every unit s as witness)."
  },
  {
   "property": "C07",
   "status": "proved",
   "theorems": [
    "c07_tables_are_groups",
    "c07_tables_are_the_laue_rotations"
   ],
   "note": ""
  },
  {
   "property": "C08",
   "status": "proved",
   "theorems": [
    "c08_fz_is_equivalent",
    "c08_fz_has_largest_real_part",
    "c08_fz_has_smallest_angle",
    "c08_fz_idempotent",
    "c08_equivalent_inputs_same_real_part",
    "c08_equivalent_inputs_same_result",
    "c08_equivalence_relation"
   ],
   "note": ""
  },
  {
   "property": "C09",
   "status": "proved",
   "theorems": [
    "c09_closed_form_agrees_with_brute_force",
    "c09_in_fz_meaning",
    "c09_negative_real_part_differs"
   ],
   "note": ""
  },
  {
   "property": "C10",
   "status": "proved",
   "theorems": [
    "c10_reduced_is_inside"
   ],
   "note": ""
  },
  {
   "property": "C11",
   "status": "proved",
   "theorems": [
    "c11_angle_is_minimal",
    "c11_angle_range",
    "c11_angle_symmetric",
    "c11_angle_zero",
    "c11_left_symmetry_invariant",
    "c11_triangle_inequality",
    "c11_disorientation_attains_the_angle",
    "c11_ori_angle_equals_disori_angle",
    "c11_batch_length_mismatch",
    "c11_batch_elementwise"
   ],
   "note": ""
  },
  {
   "property": "C12",
   "status": "proved",
   "theorems": [
    "c12_orbit"
   ],
   "note": ""
  },
  {
   "property": "C13",
   "status": "partial",
   "theorems": [
    "c13_space_group_laue_partial",
    "c13_every_space_group_has_a_class",
    "c13_space_group_laue_refuted",
    "c13_invalid_space_group"
   ],
   "note": "Proved for every space group except 194 and 149-155; refuted there: 194 (P6_3/mmc) is sent to m-3 (10) instead of 6/mmm (9) and the 32 groups 149-155 to -3 (6) instead of -3m (7). Numbers outside 1..230 raise ValueError (proved)."
  },
  {
   "property": "C14",
   "status": "proved",
   "theorems": [
    "c14_point_group_laue",
    "c14_unknown_point_group",
    "c14_agrees_with_space_group"
   ],
   "note": ""
  },
  {
   "property": "C15",
   "status": "proved",
   "theorems": [
    "c15_equivalence",
    "c15_interior_batch",
    "c15_interior_unique",
    "c15_interior_in_sector",
    "c15_covers",
    "c15_sound",
    "c15_samples_in_sector",
    "c15_fibonacci_sample_complete",
    "c15_ids"
   ],
   "note": ""
  },
  {
   "property": "C16",
   "status": "proved",
   "theorems": [
    "c16_chunked_search_is_exact",
    "c16_query_pieces_exact",
    "c16_answers_agree",
    "c16_answer_meaning"
   ],
   "note": ""
  },
  {
   "property": "C17",
   "status": "proved",
   "theorems": [
    "c17_any_history",
    "c17_query_before_data",
    "c17_short_chunk_rejected",
    "c17_query_count_checked",
    "c17_unknown_metric"
   ],
   "note": ""
  },
  {
   "property": "C18",
   "status": "partial",
   "theorems": [
    "c18_indices_wrap_refuted",
    "c18_quantised_euclidean_refuted"
   ],
   "note": "REFUTED twice: data_size >= 2^31 selects int32 storage (the condition is inverted), so query_chunk wraps indices to negative numbers; the quantised CPU path always maximises the inner product, so with the Euclidean metric it returns rows that are not nearest. For data_size < 2^31 and no quantisation C16/C17 prove the indices correct."
  },
  {
   "property": "C19",
   "status": "proved",
   "theorems": [
    "c19_streaming_equals_batch",
    "c19_split_does_not_matter",
    "c19_covariance_psd",
    "c19_correlation"
   ],
   "note": ""
  },
  {
   "property": "C20",
   "status": "proved",
   "theorems": [
    "c20_oja_plus_counters",
    "c20_oja_counter"
   ],
   "note": ""
  },
  {
   "property": "C21",
   "status": "proved",
   "theorems": [
    "c21_product",
    "c21_small_prime_factors",
    "c21_trial_division"
   ],
   "note": "For n >= 65536 the statement is conditional on FactorECM returning (its termination depends on random draws)."
  },
  {
   "property": "C22",
   "status": "proved",
   "theorems": [
    "c22_product",
    "c22_small_total"
   ],
   "note": ""
  },
  {
   "property": "C23",
   "status": "proved",
   "theorems": [
    "c23_gcd",
    "c23_gcd_up_to_sign",
    "c23_egcd",
    "c23_modular_inverse",
    "c23_sieve",
    "c23_sieve_increasing"
   ],
   "note": ""
  },
  {
   "property": "C24",
   "status": "proved",
   "theorems": [
    "c24_transparent",
    "c24_early_stop",
    "c24_bar_width",
    "c24_ends_full"
   ],
   "note": "Timing text on the bar is not modelled."
  },
  {
   "property": "C25",
   "status": "proved",
   "theorems": [
    "c25_qu2om_rotation",
    "c25_qu2om_homomorphism",
    "c25_qu2om_even",
    "c25_qu2om_only_sign_lost",
    "c25_qu2om_onto_rotations",
    "c25_qu2om_is_axis_angle_rotation"
   ],
   "note": ""
  },
  {
   "property": "C26",
   "status": "proved",
   "theorems": [
    "c26_om2qu_inverts_qu2om",
    "c26_qu2om_inverts_om2qu",
    "c26_om2qu_always_unit"
   ],
   "note": ""
  },
  {
   "property": "C27",
   "status": "proved",
   "theorems": [
    "c27_qu2ax_roundtrip",
    "c27_ax2qu_roundtrip",
    "c27_ax2qu_is_axis_angle",
    "c27_ax2om_is_rotation",
    "c27_ax2om_agrees_with_quaternion",
    "c27_ax2om_small_angle_error",
    "c27_om2ax_recovers"
   ],
   "note": ""
  },
  {
   "property": "C28",
   "status": "proved",
   "theorems": [
    "c28_quaternion_roundtrip",
    "c28_near_half_turn",
    "c28_axis_angle_roundtrip",
    "c28_rodrigues_roundtrip"
   ],
   "note": ""
  },
  {
   "property": "C29",
   "status": "proved",
   "theorems": [
    "c29_bu2om_is_bunge_matrix",
    "c29_bu2qu_is_inverse_zxz",
    "c29_bu2qu_unit_standard",
    "c29_qu2bu_range",
    "c29_quaternion_roundtrip",
    "c29_angles_roundtrip"
   ],
   "note": ""
  },
  {
   "property": "C30",
   "status": "proved",
   "theorems": [
    "c30_norm",
    "c30_cube_is_ball",
    "c30_octant",
    "c30_zero_fixed",
    "c30_ho2cu_inverts_cu2ho",
    "c30_cu2ho_inverts_ho2cu",
    "c30_tie_order_irrelevant",
    "c30_equal_volume",
    "c30_cube_symmetry",
    "c30_ax2ho_norm",
    "c30_ax2ho_fills_ball",
    "c30_ax2ho_injective",
    "c30_ho2ax_unit_axis",
    "c30_ho2ax_recovers_axis",
    "c30_ho2ax_half_angle",
    "c30_ho2qu_cu2qu_unit",
    "c30_qu2ho_via_axis_angle",
    "c30_qu2ho_in_ball"
   ],
   "note": "Exact-real model; the polynomial angle fit of ho2ax is modelled but its accuracy (angle(ho2ax(ax2ho)) close to the angle) is not claimed. Equal volume is proved in the open sector 0<x<y<z and transported by the cube symmetries."
  },
  {
   "property": "C31",
   "status": "proved",
   "theorems": [
    "c31_zh2om_rotation",
    "c31_zh2om_om2zh",
    "c31_zh2om_dependent_nan",
    "c31_zh_quaternion_roundtrip"
   ],
   "note": ""
  },
  {
   "property": "C32",
   "status": "proved",
   "theorems": [
    "c32_unit_vectors",
    "c32_vector_roundtrip",
    "c32_angle_roundtrip"
   ],
   "note": ""
  },
  {
   "property": "C33",
   "status": "proved",
   "theorems": [
    "c33_into_square",
    "c33_onto_hemisphere",
    "c33_point_roundtrip",
    "c33_square_roundtrip",
    "c33_implementations_agree",
    "c33_equal_area"
   ],
   "note": ""
  },
  {
   "property": "C34",
   "status": "proved",
   "theorems": [
    "c34_halves",
    "c34_injective"
   ],
   "note": ""
  },
  {
   "property": "C35",
   "status": "proved",
   "theorems": [
    "c35_s2_fibonacci_modes",
    "c35_s2_fibonacci_unit",
    "c35_s2_fibonacci_equal_heights",
    "c35_s2_fibonacci_distinct",
    "c35_s2_fibonacci_symmetric",
    "c35_so3_fibonacci",
    "c35_so3_fibonacci_constant",
    "c35_so3_uniform_quat",
    "c35_so3_cu_rand",
    "c35_cubochoric_grid",
    "c35_cubochoric_grid_distinct"
   ],
   "note": ""
  },
  {
   "property": "C36",
   "status": "proved",
   "theorems": [
    "c36_only_and_all_fz_points",
    "c36_samples_have_smallest_angle",
    "c36_angle_sampler_fz_points",
    "c36_defined_iff_valid_id"
   ],
   "note": ""
  },
  {
   "property": "C37",
   "status": "proved",
   "theorems": [
    "c37_exp_is_rigid",
    "c37_exp_rotates_about_omega",
    "c37_last_row",
    "c37_exp_zero",
    "c37_small_angle_error",
    "c37_w_exp_rotates",
    "c37_one_parameter_group",
    "c37_inverse_motion",
    "c37_screw_translation",
    "c37_quaternion_form_agrees",
    "c37_split_form_agrees",
    "c37_v_matrices_inverse"
   ],
   "note": ""
  },
  {
   "property": "C38",
   "status": "proved",
   "theorems": [
    "c38_log_of_exp_om",
    "c38_log_of_exp_split",
    "c38_log_of_exp_quat",
    "c38_every_rotation_has_axis",
    "c38_exp_of_log",
    "c38_log_rotation_part",
    "c38_small_angle_error"
   ],
   "note": ""
  },
  {
   "property": "C39",
   "status": "proved",
   "theorems": [
    "c39_bruker_is_rotation",
    "c39_pattern_centre_meaning",
    "c39_detector_normal",
    "c39_from_inverts_to"
   ],
   "note": ""
  },
  {
   "property": "C40",
   "status": "proved",
   "theorems": [
    "c40_constructed_geometry_is_rigid",
    "c40_detector_to_sample_is_rotation",
    "c40_backproject_inverts_project",
    "c40_origin_on_detector",
    "c40_project_of_backprojection_on_ray",
    "c40_ray_length_irrelevant",
    "c40_projection_is_isometric",
    "c40_untuned_roundtrip"
   ],
   "note": ""
  },
  {
   "property": "C41",
   "status": "proved",
   "theorems": [
    "c41_indivisible_binning_raises",
    "c41_grid"
   ],
   "note": ""
  },
  {
   "property": "C42",
   "status": "proved",
   "theorems": [
    "c42_spec_is_deterministic",
    "c42_orientations_last_set",
    "c42_all_orientations_last_set",
    "c42_coords_last_set",
    "c42_setters_touch_nothing_else",
    "c42_shape_mismatch",
    "c42_valid_calls_succeed",
    "c42_init_ranks",
    "c42_init_layout",
    "c42_init_spatial_shape",
    "c42_get_patterns_addressed"
   ],
   "note": ""
  },
  {
   "property": "C43",
   "status": "proved",
   "theorems": [
    "c43_minmax",
    "c43_minmax_keeps_pixel_order",
    "c43_zeromean",
    "c43_standard",
    "c43_normalise_keeps_shape",
    "c43_background_pixel_mean",
    "c43_binned_patterns"
   ],
   "note": ""
  },
  {
   "property": "C44",
   "status": "proved",
   "theorems": [
    "c44_single_phase",
    "c44_last_results_win",
    "c44_results_needed",
    "c44_phases_partition",
    "c44_phases_needed"
   ],
   "note": ""
  },
  {
   "property": "C45",
   "status": "proved",
   "theorems": [
    "c45_exactly_one_group",
    "c45_group_choice",
    "c45_hemispheres_side_by_side",
    "c45_interpolation_is_pointwise",
    "c45_interpolation_succeeds",
    "c45_first_virtual_binning",
    "c45_cache_bounded"
   ],
   "note": ""
  },
  {
   "property": "C46",
   "status": "partial",
   "theorems": [
    "c46_no_component_kept_refuted",
    "c46_leading_component_dropped_refuted",
    "c46_when_correct",
    "c46_search_in_projection",
    "c46_all_components_lossless"
   ],
   "note": "Violated by the code: proved as a refutation."
  },
  {
   "property": "C47",
   "status": "proved",
   "theorems": [
    "c47_indexing_is_exhaustive_search",
    "c47_chunk_sizes_irrelevant"
   ],
   "note": ""
  },
  {
   "property": "C48",
   "status": "proved",
   "theorems": [
    "c48_local_grid",
    "c48_symmetric",
    "c48_other_dimensions_rejected"
   ],
   "note": ""
  },
  {
   "property": "C49",
   "status": "proved",
   "theorems": [
    "c49_grid_refinement_never_worse",
    "c49_first_iteration_is_exhaustive",
    "c49_scan_refines_every_pattern"
   ],
   "note": ""
  },
  {
   "property": "C50",
   "status": "partial",
   "theorems": [
    "c50_acceptance_rule",
    "c50_improvements_discarded",
    "c50_accepted_was_worse",
    "c50_improvement_kept_refuted",
    "c50_zero_iterations_fail"
   ],
   "note": "REFUTED: line 357 stores the negated initial similarity and line 383 accepts when the final similarity is below it, so from a non-negative similarity on every improvement is discarded and every accepted result was evaluated as worse and negative (c50_improvements_discarded, c50_accepted_was_worse, c50_improvement_kept_refuted); n_iter=0 fails.  The optimiser step is an arbitrary function."
  },
  {
   "property": "C51",
   "status": "proved",
   "theorems": [
    "c51_global_best",
    "c51_lag_is_window",
    "c51_single_batch",
    "c51_batch_size_irrelevant_to_similarity"
   ],
   "note": "The FFT correlation is modelled as circular cross-correlation; the simulator is an arbitrary function."
  },
  {
   "property": "C52",
   "status": "partial",
   "theorems": [
    "c52_exactly",
    "c52_refuted",
    "c52_precedence_refuted",
    "c52_true_class_elsewhere"
   ],
   "note": "REFUTED: agrees with EMsoft exactly for the groups of c52_exactly (88 of 230). Causes: the cell reports the next crystal class for every group that is not the first of its class (C139), and Python chains '==' / '<=' / '|' so 148-155 and 157 fall through to type 16 even with the right class (c52_precedence_refuted). Group 194 (P6_3/mmc) is sampled as monoclinic 2."
  },
  {
   "property": "C53",
   "status": "proved",
   "theorems": [
    "c53_histogram",
    "c53_exact_without_coincidences"
   ],
   "note": ""
  },
  {
   "property": "C54",
   "status": "proved",
   "theorems": [
    "c54_unit_directions",
    "c54_result_is_a_pass",
    "c54_scatter_unit",
    "c54_scatter_angle",
    "c54_scatter_angle_near_pole",
    "c54_terminates"
   ],
   "note": ""
  },
  {
   "property": "C55",
   "status": "proved",
   "theorems": [
    "c55_unit_range_images_accepted",
    "c55_out_of_range_rejected",
    "c55_shape",
    "c55_local_tone_curves",
    "c55_output_in_unit_range",
    "c55_single_tile_keeps_order",
    "c55_constant_stays_constant",
    "c55_tiles_partition",
    "c55_tiles_hold_image_pixels",
    "c55_redistribution_keeps_count",
    "c55_redistribution_even",
    "c55_cdf_ends_at_one",
    "c55_contrast_limited",
    "c55_tile_contents",
    "c55_empirical_distribution",
    "c55_blend_by_position"
   ],
   "note": ""
  },
  {
   "property": "C56",
   "status": "proved",
   "theorems": [
    "c56_average_of_neighbours",
    "c56_no_overshoot",
    "c56_bias_towards_original",
    "c56_self_is_first",
    "c56_edge_neighbours_estimate_noise",
    "c56_weights_and_bandwidth",
    "c56_defined_when_distinct"
   ],
   "note": ""
  },
  {
   "property": "C57",
   "status": "proved",
   "theorems": [
    "c57_kernel_size",
    "c57_kernel_normalised",
    "c57_kernel_symmetric",
    "c57_even_size_kept",
    "c57_reflect_accepts",
    "c57_no_overshoot",
    "c57_no_overshoot_zero_padding",
    "c57_flip_equivariant"
   ],
   "note": ""
  },
  {
   "property": "C58",
   "status": "partial",
   "theorems": [
    "c58_slerp_batch_shape_refuted",
    "c58_slerp_single_shape"
   ],
   "note": "REFUTED: a batch of n != 1 quaternions comes back with shape (n,4,n); only a single quaternion or a batch of one keeps its shape."
  },
  {
   "property": "C59",
   "status": "partial",
   "theorems": [
    "c59_slerp_equal_endpoints_refuted"
   ],
   "note": "REFUTED: equal endpoints divide by sin(0) = 0 (NaN) for every t."
  },
  {
   "property": "C60",
   "status": "partial",
   "theorems": [
    "c60_other_ids",
    "c60_invalid_id_raises_refuted",
    "c60_closed_form_rejects_other_ids"
   ],
   "note": "REFUTED for laue_elements/get_laue_mult (and everything built on them): ids -10..0 are accepted through negative indexing (0 is treated as cubic). ori_in_fz_laue does reject every id outside 1..11; ids <= -11 and >= 12 fail everywhere."
  },
  {
   "property": "C61",
   "status": "partial",
   "theorems": [
    "c61_equivalent_orientations_refuted",
    "c61_two_groups_left_invariance_refuted"
   ],
   "note": "REFUTED: ori_equiv_laue and ori_to_fz_laue multiply symmetry operators on the right of the orientation, disori_angle_laue forms q1 q2^-1 and multiplies on both outer sides, so right-equivalent orientations are reported up to pi apart; with two different groups the operators are also applied on swapped sides."
  },
  {
   "property": "C62",
   "status": "partial",
   "theorems": [
    "c62_repeated_query_refuted"
   ],
   "note": "REFUTED: k=2, two data rows, the same query sent twice to the same chunk: both neighbours are row 0, for every torch.topk."
  },
  {
   "property": "C63",
   "status": "partial",
   "theorems": [
    "c63_empty_batch_refuted"
   ],
   "note": "REFUTED: an empty batch has mean 0/0 and all buffers become NaN for good; the theorem shows it for every history containing an empty batch."
  },
  {
   "property": "C64",
   "status": "partial",
   "theorems": [
    "c64_single_component_refuted"
   ],
   "note": "REFUTED: n_components // 2 = 0 and the first update divides by zero, for every input."
  },
  {
   "property": "C65",
   "status": "proved",
   "theorems": [
    "c65_components_orthonormal",
    "c65_transform_inverts"
   ],
   "note": ""
  },
  {
   "property": "C66",
   "status": "partial",
   "theorems": [
    "c66_oja_plus_orthonormal_refuted",
    "c66_column_is_the_draw"
   ],
   "note": "REFUTED: the freshly initialised column is the raw random draw after the QR step; a zero draw (or any non-unit one) breaks orthonormality."
  },
  {
   "property": "C67",
   "status": "proved",
   "theorems": [
    "c67_transform_inverts",
    "c67_residual_orthogonal",
    "c67_step_size"
   ],
   "note": ""
  },
  {
   "property": "C68",
   "status": "partial",
   "theorems": [
    "c68_factors_prime_refuted"
   ],
   "note": "REFUTED: 75361 = 11*13*17*31 is a Carmichael number; whenever the 32 draws are coprime to it (e.g. all equal to 2) it is returned as its own factor."
  },
  {
   "property": "C69",
   "status": "partial",
   "theorems": [
    "c69_terminates_refuted",
    "c69_trial_division_zero"
   ],
   "note": "REFUTED: for n = 0 the loop removing factors of two never ends (every step budget is exhausted). For 1 <= n < 65536 termination is proved (c21_small_prime_factors); above, termination depends on the random draws and is not claimed."
  },
  {
   "property": "C70",
   "status": "partial",
   "theorems": [
    "c70_half_turn_roundtrip_iff",
    "c70_half_turn_roundtrip_refuted"
   ],
   "note": "REFUTED: the copysign step uses antisymmetric parts that vanish at 180 degrees, so the axis comes back as (|x|,|y|,|z|). Exact characterisation proved: the round trip works iff the axis components all have one sign."
  },
  {
   "property": "C71",
   "status": "partial",
   "theorems": [
    "c71_negative_real_part_gives_inverse",
    "c71_negative_real_part_refuted",
    "c71_minus_identity_is_nan_refuted"
   ],
   "note": "REFUTED: for -1 < w < 0 the result is the inverse rotation (the axis is negated but the angle 2 acos w is kept); for w = -1 it is NaN. C27 covers w >= 0."
  },
  {
   "property": "C72",
   "status": "partial",
   "theorems": [
    "c72_small_angles_not_orthogonal_refuted",
    "c72_negative_angle_refuted"
   ],
   "note": "REFUTED: every angle in (0, 0.05] gives a matrix that is not exactly orthogonal (within 3e-9, C27), and every angle <= 0.05, including large negative ones, uses the small-angle series: axis z, angle -2 gives m00 = -1/3."
  },
  {
   "property": "C73",
   "status": "partial",
   "theorems": [
    "c73_om2ax_identity_nan_refuted",
    "c73_om2ax_half_turn_nan_refuted"
   ],
   "note": "REFUTED: the identity and all half-turns divide by a zero norm (NaN)."
  },
  {
   "property": "C74",
   "status": "proved",
   "theorems": [
    "c74_om_bu_om",
    "c74_ax2bu_same_rotation",
    "c74_bu2ax_same_rotation",
    "c74_ro2bu_same_rotation",
    "c74_om2ro_same_rotation"
   ],
   "note": ""
  },
  {
   "property": "C75",
   "status": "proved",
   "theorems": [
    "c75_clifford_identifies_rotation",
    "c75_clifford_even"
   ],
   "note": ""
  },
  {
   "property": "C76",
   "status": "partial",
   "theorems": [
    "c76_negative_real_part_outside_ball",
    "c76_qu2ho_ball_refuted",
    "c76_sign_dependent"
   ],
   "note": "Violated by the code: every unit quaternion with -1 < w < 0 leaves the ball, and q, -q get different coordinates; c30_qu2ho_in_ball is the part that holds."
  },
  {
   "property": "C77",
   "status": "partial",
   "theorems": [
    "c77_newton_axis_length",
    "c77_newton_axis_unit_refuted"
   ],
   "note": "Violated: line 665 multiplies by rsqrt(|ho|) instead of 1/|ho|, so the axis has length sqrt|ho|."
  },
  {
   "property": "C78",
   "status": "partial",
   "theorems": [
    "c78_argument_unchanged_iff",
    "c78_argument_unchanged_refuted"
   ],
   "note": "Violated: clamp_ on the slice view writes the clamped real part back into the argument; unchanged iff -1 <= w <= 1."
  },
  {
   "property": "C79",
   "status": "partial",
   "theorems": [
    "c79_direct_roundtrip_refuted",
    "c79_direct_result"
   ],
   "note": "refuted: xyz_to_theta_phi returns (polar, azimuth) while theta_phi_to_xyz takes (azimuth, polar); C32 proves the roundtrip with the order swapped"
  },
  {
   "property": "C80",
   "status": "partial",
   "theorems": [
    "c80_unit_iff",
    "c80_unit_refuted"
   ],
   "note": "refuted: z = 1 - x^2 - y^2, the norm is 1 only on the equator and at the pole (exact characterisation proved)"
  },
  {
   "property": "C81",
   "status": "partial",
   "theorems": [
    "c81_undefined_iff",
    "c81_pole_roundtrip_refuted"
   ],
   "note": "refuted: 0/0 exactly at the centre of the square, the image of the pole"
  },
  {
   "property": "C82",
   "status": "partial",
   "theorems": [
    "c82_same_step_for_all_groups_refuted"
   ],
   "note": "refuted: the number of SO(3) points is divided by half the Laue multiplicity before the fundamental-zone rejection; at a resolution where the triclinic grid has edge 9 the cubic grid has edge 3"
  },
  {
   "property": "C83",
   "status": "partial",
   "theorems": [
    "c83_s2_equiv_refuted"
   ],
   "note": "REFUTED: the 2|G| candidates per point are reshaped to |G| rows, so every non-empty call raises."
  },
  {
   "property": "C84",
   "status": "partial",
   "theorems": [
    "c84_cubic_high_planes_refuted",
    "c84_trigonal_pole_refuted",
    "c84_triclinic_equator_refuted"
   ],
   "note": "REFUTED: cubic-high rejects every direction with a zero coordinate (e.g. [001]), trigonal-high rejects the pole, triclinic rejects the equator (two matches): the reshape raises."
  },
  {
   "property": "C85",
   "status": "partial",
   "theorems": [
    "c85_rows_misaligned_refuted"
   ],
   "note": "REFUTED: trigonal-high, [(0,0,1),(0,-0.6,0.8)] returns (0,-0.6,0.8) twice."
  },
  {
   "property": "C86",
   "status": "partial",
   "theorems": [
    "c86_log_of_exp_small_refuted",
    "c86_every_small_angle_is_shrunk",
    "c86_half_turn_has_no_log"
   ],
   "note": "Violated by the code: proved as a refutation with an explicit witness (or for every affected input)."
  },
  {
   "property": "C87",
   "status": "partial",
   "theorems": [
    "c87_small_exp_is_rotation_refuted",
    "c87_small_exp_quaternion_is_unit_refuted"
   ],
   "note": "Violated by the code: proved as a refutation with an explicit witness (or for every affected input)."
  },
  {
   "property": "C88",
   "status": "partial",
   "theorems": [
    "c88_flat_batch_ok",
    "c88_batch_shapes_refuted",
    "c88_batch_of_three_refuted"
   ],
   "note": "Violated by the code: proved as a refutation with an explicit witness (or for every affected input)."
  },
  {
   "property": "C89",
   "status": "partial",
   "theorems": [
    "c89_default_tilt_roundtrip_refuted",
    "c89_negative_tilts_flip_sign"
   ],
   "note": "Violated by the code: proved as a refutation with an explicit witness (or for every affected input)."
  },
  {
   "property": "C90",
   "status": "partial",
   "theorems": [
    "c90_pixel_centres_refuted",
    "c90_offset",
    "c90_last_pixel"
   ],
   "note": "Violated by the code: proved as a refutation with an explicit witness (or for every affected input)."
  },
  {
   "property": "C91",
   "status": "partial",
   "theorems": [
    "c91_initial_se3_vector_used_refuted",
    "c91_masked_off_is_pattern_centre"
   ],
   "note": "Violated by the code: proved as a refutation with an explicit witness (or for every affected input)."
  },
  {
   "property": "C92",
   "status": "proved",
   "theorems": [
    "c92_unit_directions",
    "c92_volumetric_scaling_invisible",
    "c92_undeformed_is_rotated_pixel_ray",
    "c92_grid_count_and_errors"
   ],
   "note": ""
  },
  {
   "property": "C93",
   "status": "proved",
   "theorems": [
    "c93_mask_update",
    "c93_masked_components_ignored"
   ],
   "note": ""
  },
  {
   "property": "C94",
   "status": "partial",
   "theorems": [
    "c94_unset_coords_error_refuted",
    "c94_indexed_write_needs_full_write"
   ],
   "note": "Violated by the code (C99: its last part): proved as a refutation with an explicit witness (or for every affected input)."
  },
  {
   "property": "C95",
   "status": "partial",
   "theorems": [
    "c95_several_phases_refuted",
    "c95_single_nonzero_phase_refuted",
    "c95_multi_phase_indexing_refuted"
   ],
   "note": "Violated by the code (C99: its last part): proved as a refutation with an explicit witness (or for every affected input)."
  },
  {
   "property": "C96",
   "status": "partial",
   "theorems": [
    "c96_failed_normalise_changes_state_refuted"
   ],
   "note": "Violated by the code (C99: its last part): proved as a refutation with an explicit witness (or for every affected input)."
  },
  {
   "property": "C97",
   "status": "partial",
   "theorems": [
    "c97_caller_data_modified_refuted",
    "c97_same_storage_until_clahe",
    "c97_safe_after_clahe"
   ],
   "note": "Violated by the code (C99: its last part): proved as a refutation with an explicit witness (or for every affected input)."
  },
  {
   "property": "C98",
   "status": "partial",
   "theorems": [
    "c98_one_pattern_phase_rank_refuted",
    "c98_rank_one_otherwise"
   ],
   "note": "Violated by the code (C99: its last part): proved as a refutation with an explicit witness (or for every affected input)."
  },
  {
   "property": "C99",
   "status": "partial",
   "theorems": [
    "c99_stored_unchanged",
    "c99_default_identity",
    "c99_broadcast_refuted"
   ],
   "note": "Violated by the code (C99: its last part): proved as a refutation with an explicit witness (or for every affected input)."
  },
  {
   "property": "C100",
   "status": "partial",
   "theorems": [
    "c100_requested_binning_ignored",
    "c100_copy_never_refreshed",
    "c100_stale_binning_refuted"
   ],
   "note": "Violated by the code: proved as a refutation (for every affected input, with a witness)."
  },
  {
   "property": "C101",
   "status": "proved",
   "theorems": [
    "c101_interpolated_in_range",
    "c101_exact_at_pixel_centres",
    "c101_length_irrelevant",
    "c101_normalised_ranges"
   ],
   "note": ""
  },
  {
   "property": "C102",
   "status": "partial",
   "theorems": [
    "c102_north_sees_north",
    "c102_south_sees_south",
    "c102_seam_value",
    "c102_seam_refuted",
    "c102_binned_seam_refuted"
   ],
   "note": "Proved away from the seam; refuted at the seam with explicit witnesses."
  },
  {
   "property": "C103",
   "status": "partial",
   "theorems": [
    "c103_energy_weighted_average",
    "c103_several_sites_refuted"
   ],
   "note": "Weighted average proved for all data; loading of several atom sites refuted for every such file."
  },
  {
   "property": "C104",
   "status": "partial",
   "theorems": [
    "c104_empty_interpolation_hangs_refuted"
   ],
   "note": "Violated by the code: proved as a refutation (for every affected input, with a witness)."
  },
  {
   "property": "C105",
   "status": "partial",
   "theorems": [
    "c105_identical_neighbours_refuted"
   ],
   "note": "Violated by the code: proved as a refutation for every affected input, with a witness."
  },
  {
   "property": "C106",
   "status": "partial",
   "theorems": [
    "c106_dark_border_refuted"
   ],
   "note": "Violated by the code: proved as a refutation for every affected input, with a witness."
  },
  {
   "property": "C107",
   "status": "partial",
   "theorems": [
    "c107_radius_zero_refuted"
   ],
   "note": "Violated by the code: proved as a refutation for every affected input, with a witness."
  },
  {
   "property": "C108",
   "status": "partial",
   "theorems": [
    "c108_odd_size_refuted"
   ],
   "note": "Violated by the code: proved as a refutation for every affected input."
  },
  {
   "property": "C109",
   "status": "proved",
   "theorems": [
    "c109_mask_is_disc",
    "c109_mask_symmetric",
    "c109_mask_transposes",
    "c109_mask_grows_with_radius",
    "c109_default_reaches_edges"
   ],
   "note": ""
  },
  {
   "property": "C110",
   "status": "partial",
   "theorems": [
    "c110_thin_mask_empty_refuted"
   ],
   "note": "Violated by the code: proved as a refutation for every affected input."
  },
  {
   "property": "C111",
   "status": "partial",
   "theorems": [
    "c111_short_last_chunk_refuted",
    "c111_short_last_chunk_always"
   ],
   "note": "Violated by the code: proved as a refutation."
  },
  {
   "property": "C112",
   "status": "partial",
   "theorems": [
    "c112_mean_flag_refuted",
    "c112_flag_irrelevant_for_angular"
   ],
   "note": "Violated by the code: proved as a refutation."
  },
  {
   "property": "C113",
   "status": "partial",
   "theorems": [
    "c113_exact_copy_refuted",
    "c113_exact_copy_distances",
    "c113_exact_copy_equal_norms"
   ],
   "note": "Violated by the code: proved as a refutation."
  },
  {
   "property": "C114",
   "status": "partial",
   "theorems": [
    "c114_scan_positions_refuted"
   ],
   "note": "Violated by the code: proved as a refutation."
  },
  {
   "property": "C115",
   "status": "proved",
   "theorems": [
    "c115_gain_offset",
    "c115_gain_offset_of_a_run"
   ],
   "note": ""
  },
  {
   "property": "C116",
   "status": "partial",
   "theorems": [
    "c116_pca_binning_refuted"
   ],
   "note": "Violated by the code: proved as a refutation."
  },
  {
   "property": "C117",
   "status": "partial",
   "theorems": [
    "c117_radius_zero",
    "c117_zero_offset_present_refuted"
   ],
   "note": "REFUTED: torch.linspace with one step returns its left end, so radius 0 gives the corner of the cube (dimension 3) or no point at all."
  },
  {
   "property": "C118",
   "status": "partial",
   "theorems": [
    "c118_small_grids_do_nothing",
    "c118_better_neighbour_found_refuted"
   ],
   "note": "REFUTED: ho2ax treats homochoric vectors of squared norm below 1e-6 as the identity, so for semi-edges up to 0.13 degrees (and after enough shrinking) only the stored orientation itself is tried."
  },
  {
   "property": "C119",
   "status": "partial",
   "theorems": [
    "c119_single_pattern_batch_fails",
    "c119_any_batch_size_refuted"
   ],
   "note": "REFUTED: .squeeze() on the simulated patterns drops the batch dimension when a batch holds one pattern; the einsum then fails."
  },
  {
   "property": "C120",
   "status": "partial",
   "theorems": [
    "c120_batch_independent_refuted",
    "c120_index_within_batch"
   ],
   "note": "REFUTED: lines 515-519 store the index within the dictionary batch, without the batch offset; with two batches entry 0 is reported though entry 1 won (c120_index_within_batch says what the index means)."
  },
  {
   "property": "C121",
   "status": "partial",
   "theorems": [
    "c121_negative_scores",
    "c121_best_entry_refuted"
   ],
   "note": "REFUTED: best similarities start at 0, so a pattern whose scores at the common best position are all negative is given dictionary entry 0 (c121_negative_scores)."
  },
  {
   "property": "C122",
   "status": "partial",
   "theorems": [
    "c122_centre_of_window",
    "c122_sign_refuted"
   ],
   "note": "REFUTED: lines 540-541 add the lag instead of subtracting it: for even detectors with symmetric windows the reported centre is right only at lag 0."
  },
  {
   "property": "C123",
   "status": "partial",
   "theorems": [
    "c123_zero_lag",
    "c123_zero_lag_symmetric",
    "c123_asymmetric_refuted"
   ],
   "note": "REFUTED: lines 540-541 subtract pad + (len+1)//2 although fftshift puts lag 0 at N//2: wrong for odd detectors and asymmetric search windows (H=60, pc in [0.5,1] gives 0.75); right for even detectors and symmetric windows."
  },
  {
   "property": "C124",
   "status": "partial",
   "theorems": [
    "c124_odd_width_refuted"
   ],
   "note": "REFUTED: irfft2 without a size always returns an even number of columns, so odd padded widths fail in torch.maximum."
  },
  {
   "property": "C125",
   "status": "partial",
   "theorems": [
    "c125_binned_untouched",
    "c125_unbinned_overwritten_refuted",
    "c125_normalised",
    "c125_constant_is_nan"
   ],
   "note": "REFUTED: without binning the in-place normalisation (lines 396-400) writes into the caller's tensor; constant patterns become NaN."
  },
  {
   "property": "C126",
   "status": "partial",
   "theorems": [
    "c126_spacing_refuted",
    "c126_unbinned_value",
    "c126_padding_in_binned_pixels"
   ],
   "note": "REFUTED: the end points lack the -1 and the paddings are in binned pixels, so the pitch equals the binning only for binning 2 with one padding pixel in total."
  },
  {
   "property": "C127",
   "status": "proved",
   "theorems": [
    "c127_unit",
    "c127_nan",
    "c127_dictionary",
    "c127_compose"
   ],
   "note": ""
  },
  {
   "property": "C128",
   "status": "partial",
   "theorems": [
    "c128_every_electron_counted_refuted"
   ],
   "note": "REFUTED: accumulator[idx] += 1 counts electrons sharing a cell in one pass once; witness run with two electrons, yield 2, cell value 1."
  },
  {
   "property": "C129",
   "status": "partial",
   "theorems": [
    "c129_terminates_refuted"
   ],
   "note": "REFUTED: with n_electrons = 0 neither counter ever grows, the loop never ends."
  },
  {
   "property": "C130",
   "status": "proved",
   "theorems": [
    "c130_step",
    "c130_counted_energy",
    "c130_condition_needed"
   ],
   "note": "c130_condition_needed shows an electron of negative energy being counted when the bins reach beyond the starting energy."
  },
  {
   "property": "C131",
   "status": "proved",
   "theorems": [
    "c131_in_bounds",
    "c131_distinct_cells",
    "c131_counts",
    "c131_masked_only_by_energy_or_depth"
   ],
   "note": ""
  },
  {
   "property": "C132",
   "status": "proved",
   "theorems": [
    "c132_good_seeds_stay_good"
   ],
   "note": ""
  },
  {
   "property": "C133",
   "status": "partial",
   "theorems": [
    "c133_every_seed_works_refuted"
   ],
   "note": "REFUTED: seeds come from randint(0, 2**32) without the generator's lower bounds; the zero state is a fixed point that draws 0 for ever."
  },
  {
   "property": "C134",
   "status": "proved",
   "theorems": [
    "c134_const",
    "c134_linear",
    "c134_quadratic"
   ],
   "note": ""
  },
  {
   "property": "C135",
   "status": "partial",
   "theorems": [
    "c135_error_mode_refuted",
    "c135_uses_next_segment"
   ],
   "note": "REFUTED: 'error' mode indexes the slope of the NEXT segment: wrong values inside, an exception in the last segment, no exception below the first node (used by resample_to_linear(interpolation='linear'))."
  },
  {
   "property": "C136",
   "status": "proved",
   "theorems": [
    "c136_symmetrise"
   ],
   "note": ""
  },
  {
   "property": "C137",
   "status": "proved",
   "theorems": [
    "c137_space_groups",
    "c137_generated",
    "c137_tolerance"
   ],
   "note": "Translations are exact multiples of 1/24; c137_tolerance shows the 5e-4 tolerance then means equality."
  },
  {
   "property": "C138",
   "status": "proved",
   "theorems": [
    "c138_allowed_reflections"
   ],
   "note": ""
  },
  {
   "property": "C139",
   "status": "partial",
   "theorems": [
    "c139_homogeneous_refuted"
   ],
   "note": "REFUTED: the final fmod(100 + gens[:, :, 3], 1) also hits the corner entry 1 and turns it into 0, in every group."
  },
  {
   "property": "C140",
   "status": "partial",
   "theorems": [
    "c140_second_setting_refuted"
   ],
   "note": "REFUTED: the origin shift is read starting at the flag character itself, so all 24 groups raise KeyError('1')."
  },
  {
   "property": "C141",
   "status": "partial",
   "theorems": [
    "c141_classification_refuted"
   ],
   "note": "REFUTED: the lists hold FIRST members but are searched with sg <= entry: the point group is right only for first members of a class (and 221-230), the system only for first members (and the cubic groups); tetragonal groups 76-142 are treated as trigonal; groups 222-230 get Laue class 12."
  },
  {
   "property": "C142",
   "status": "proved",
   "theorems": [
    "c142_structure_matrix",
    "c142_units"
   ],
   "note": ""
  },
  {
   "property": "C143",
   "status": "proved",
   "theorems": [
    "c143_transforms",
    "c143_round_trip"
   ],
   "note": ""
  },
  {
   "property": "C144",
   "status": "partial",
   "theorems": [
    "c144_reciprocal_to_cartesian_refuted",
    "c144_cartesian_to_direct_refuted",
    "c144_orthogonal_cells"
   ],
   "note": "REFUTED in non-orthogonal cells: rsm is applied untransposed (r->c) resp. transposed (c->d); the hexagonal cell is the witness. c144_orthogonal_cells: right for orthogonal cells."
  },
  {
   "property": "C145",
   "status": "proved",
   "theorems": [
    "c145_dot_products",
    "c145_lengths_angles",
    "c145_zero_angle_raises"
   ],
   "note": ""
  },
  {
   "property": "C146",
   "status": "proved",
   "theorems": [
    "c146_cross_products",
    "c146_cross_defined"
   ],
   "note": ""
  },
  {
   "property": "C147",
   "status": "partial",
   "theorems": [
    "c147_cross_direct_to_cartesian_refuted",
    "c147_cross_other_outputs_refuted"
   ],
   "note": "REFUTED: d->c uses the untransposed rsm (hexagonal witness); d->r and r->d raise; from Cartesian input the output frame is ignored."
  },
  {
   "property": "C148",
   "status": "partial",
   "theorems": [
    "c148_change_of_frame_refuted",
    "c148_orthogonal_frames"
   ],
   "note": "REFUTED: the transpose is used instead of the inverse; c148_orthogonal_frames: right for orthogonal matrices."
  },
  {
   "property": "C149",
   "status": "partial",
   "theorems": [
    "c149_impossible_cells_rejected_refuted",
    "c149_flat_cells_rejected"
   ],
   "note": "REFUTED: for 135/135/135 degrees the determinant is negative, the volume NaN, and the comparison does not raise."
  },
  {
   "property": "C150",
   "status": "partial",
   "theorems": [
    "c150_average_refuted",
    "c150_off_by_site_count",
    "c150_single_full_site"
   ],
   "note": "REFUTED: torch.mean divides by the number of sites and the multiplicities are summed again: c150_off_by_site_count gives the exact factor; two nickel sites give 14."
  },
  {
   "property": "C151",
   "status": "proved",
   "theorems": [
    "c151_density",
    "c151_z2_percent"
   ],
   "note": ""
  },
  {
   "property": "C152",
   "status": "proved",
   "theorems": [
    "c152_orbit"
   ],
   "note": ""
  },
  {
   "property": "C153",
   "status": "partial",
   "theorems": [
    "c153_orbit_distinct_modulo_lattice_refuted"
   ],
   "note": "REFUTED: the distance is not periodic: in P-1 the site z=5e-6 yields two atoms 1e-5 apart, z=0.500005 one."
  },
  {
   "property": "C154",
   "status": "proved",
   "theorems": [
    "c154_reflections_sound",
    "c154_differences",
    "c154_difference_table"
   ],
   "note": ""
  },
  {
   "property": "C155",
   "status": "partial",
   "theorems": [
    "c155_no_zero_reflection_refuted"
   ],
   "note": "REFUTED for every cell whose table is not a single point: [1:] removes the first corner instead of (0,0,0)."
  },
  {
   "property": "C156",
   "status": "partial",
   "theorems": [
    "c156_reflections_complete_refuted",
    "c156_outermost_axial_plane_missing",
    "c156_inner_reflections_present",
    "c156_small_cells_raise"
   ],
   "note": "REFUTED: the loops stop one short of the limit (c156_outermost_axial_plane_missing, every cell); one corner is removed; a too small cell raises (c156_small_cells_raise). c156_inner_reflections_present says what is present."
  },
  {
   "property": "C157",
   "status": "partial",
   "theorems": [
    "c157_hexagonal_axes_refuted",
    "c157_positions_refuted",
    "c157_sites_left_behind_refuted",
    "c157_transpose_is_right",
    "c157_lengths_in_degrees"
   ],
   "note": "REFUTED: alpha is converted to radians twice, angles are stored in degrees, the position matrix is transposed, and only the first n_elements sites are moved."
  },
  {
   "property": "C158",
   "status": "proved",
   "theorems": [
    "c158_square_types",
    "c158_regions"
   ],
   "note": ""
  },
  {
   "property": "C159",
   "status": "proved",
   "theorems": [
    "c159_laue_coverage",
    "c159_cartesian"
   ],
   "note": ""
  },
  {
   "property": "C160",
   "status": "partial",
   "theorems": [
    "c160_class_coverage_refuted",
    "c160_where_it_holds",
    "c160_emsoft_type"
   ],
   "note": "REFUTED for P2_1 (group 4, sampled as m): the direction with index (0,-1,+1) and any grid size. c160_where_it_holds lists the groups for which it holds; c160_emsoft_type: with EMsoft's type it holds for all of them, so the masks are right and the selection is wrong."
  },
  {
   "property": "C161",
   "status": "partial",
   "theorems": [
    "c161_tetragonal_refuted",
    "c161_others_succeed"
   ],
   "note": "REFUTED: groups 124-142 (4/mmm) get type -1 and raise ValueError; c161_others_succeed: all others return."
  },
  {
   "property": "C162",
   "status": "partial",
   "theorems": [
    "c162_unit_refuted",
    "c162_unit_iff"
   ],
   "note": "REFUTED: the radius rescaling puts z = 1 - x^2 - y^2, so a vector is a unit vector only at the pole and on the equator (c162_unit_iff); the index (0,1) of every grid of half width >= 2 is a counterexample."
  },
  {
   "property": "C163",
   "status": "partial",
   "theorems": [
    "c163_trigonal_coverage_refuted"
   ],
   "note": "REFUTED for P-3 (147): all k-vectors of type 12 lie in the first octant, while no image of the direction [3 10 1] under the Laue group does, in any hexagonal cell. The type is EMsoft's, so the mask (indices used as Cartesian coordinates) is at fault."
  },
  {
   "property": "C164",
   "status": "proved",
   "theorems": [
    "c164_lookup_is_structure_factor",
    "c164_index_in_table"
   ],
   "note": ""
  },
  {
   "property": "C165",
   "status": "partial",
   "theorems": [
    "c165_beams_distinct_refuted",
    "c165_others_distinct"
   ],
   "note": "REFUTED: get_reflections keeps 000 (C155) and the callers prepend it again, so for every cell with limits other than (1,1,1) the direct beam appears twice and its copies are coupled off the diagonal by U_000 (the mean inner potential)."
  },
  {
   "property": "C166",
   "status": "proved",
   "theorems": [
    "c166_sgh_hermitian",
    "c166_sgh_diagonal"
   ],
   "note": ""
  },
  {
   "property": "C167",
   "status": "proved",
   "theorems": [
    "c167_emitted_intensity_nonnegative",
    "c167_master_pattern_nonnegative",
    "c167_atoms_at_rest"
   ],
   "note": ""
  },
  {
   "property": "C168",
   "status": "proved",
   "theorems": [
    "c168_friedel_without_absorption",
    "c168_friedel_with_absorption"
   ],
   "note": ""
  },
  {
   "property": "C169",
   "status": "proved",
   "theorems": [
    "c169_centering_extinctions"
   ],
   "note": ""
  },
  {
   "property": "C170",
   "status": "proved",
   "theorems": [
    "c170_wavelength",
    "c170_relativistic",
    "c170_inside_the_crystal"
   ],
   "note": ""
  },
  {
   "property": "C171",
   "status": "proved",
   "theorems": [
    "c171_scattering_matrix_coefficients"
   ],
   "note": ""
  },
  {
   "property": "C172",
   "status": "proved",
   "theorems": [
    "c172_two_excitation_errors_agree",
    "c172_excitation_error_meaning",
    "c172_zero_on_the_ewald_sphere",
    "c172_wavevector"
   ],
   "note": ""
  },
  {
   "property": "C173",
   "status": "proved",
   "theorems": [
    "c173_chunk_size_irrelevant",
    "c173_weight_scale_irrelevant",
    "c173_deterministic"
   ],
   "note": ""
  },
  {
   "property": "C174",
   "status": "partial",
   "theorems": [
    "c174_always_below_95_percent_refuted",
    "c174_next_bin_reaches_goal",
    "c174_shallow_pattern_zero_refuted"
   ],
   "note": "REFUTED: the bin that reaches 95 percent is excluded, so the integrated weight is always below 95 percent, and a row whose first bin has 95 percent gives a pattern of zeros (c174_shallow_pattern_zero_refuted). c174_next_bin_reaches_goal: one more bin would do."
  },
  {
   "property": "C175",
   "status": "partial",
   "theorems": [
    "c175_depth_step_ignored_refuted"
   ],
   "note": "REFUTED: depth_step is never read."
  },
  {
   "property": "C176",
   "status": "proved",
   "theorems": [
    "c176_dhw_of_inverted_crystal",
    "c176_centrosymmetric_crystals",
    "c176_emission_centrosymmetric"
   ],
   "note": ""
  },
  {
   "property": "C177",
   "status": "partial",
   "theorems": [
    "c177_without_absorption_refuted",
    "c177_extinct_reflection_refuted"
   ],
   "note": "REFUTED: without absorption q_g is |U_g| lambda (the phase is lost); extinct reflections get 1e-8 + 1e-8 i instead of 0. Partial counterpart: C171."
  },
  {
   "property": "C178",
   "status": "partial",
   "theorems": [
    "c178_several_voltages_refuted",
    "c178_no_absorption_refuted",
    "c178_one_voltage"
   ],
   "note": "REFUTED: the (chunk, n_g) excitation errors are broadcast against the (n_voltages,) absorption values, so any voltage count other than 1 or n_g raises; without absorption upmod is a complex tensor and torch.complex raises. c178_one_voltage: one voltage with absorption works."
  },
  {
   "property": "C179",
   "status": "partial",
   "theorems": [
    "c179_dhw_of_given_crystal_refuted"
   ],
   "note": "REFUTED for a two-atom crystal without inversion centre; the code uses U(g_j - g_i), see C176."
  },
  {
   "property": "C180",
   "status": "partial",
   "theorems": [
    "c180_weights_after_call",
    "c180_weights_untouched_refuted"
   ],
   "note": "REFUTED: 'mc_weights /= mc_weights.sum()' works in place; c180_weights_after_call: the caller's tensor sums to one afterwards and a second call sees the same weights."
  },
  {
   "property": "C181",
   "status": "proved",
   "theorems": [
    "c181_bound",
    "c181_self",
    "c181_affine"
   ],
   "note": ""
  },
  {
   "property": "C182",
   "status": "partial",
   "theorems": [
    "c182_independent_zero_refuted",
    "c182_symmetric_refuted",
    "c182_at_most_entropy_refuted"
   ],
   "note": "REFUTED: the joint bin is a * (n_bins - 1) + b instead of a * n_bins + b, so different bin pairs share a joint bin: two independent images [0,0,1,1] and [0,1,0,1] get ln 2 / 2 with 2 bins; with 3 bins swapping the arguments changes the result, which also exceeds the entropy of the second image."
  },
  {
   "property": "C183",
   "status": "proved",
   "theorems": [
    "c183_value",
    "c183_zero_iff_independent",
    "c183_bounds",
    "c183_symmetric",
    "c183_unknown_mode"
   ],
   "note": ""
  },
  {
   "property": "C184",
   "status": "proved",
   "theorems": [
    "c184_formulas",
    "c184_in_unit_interval",
    "c184_identical"
   ],
   "note": ""
  },
  {
   "property": "C185",
   "status": "proved",
   "theorems": [
    "c185_exclude",
    "c185_dark_pixels_ignored"
   ],
   "note": ""
  },
  {
   "property": "C186",
   "status": "partial",
   "theorems": [
    "c186_value_one_refuted"
   ],
   "note": "REFUTED: floor(1.0 * bins) = bins lies outside the histogram (or is counted in another row of the joint table): [0, 1] with itself and 2 bins gives 0 instead of ln 2."
  },
  {
   "property": "C187",
   "status": "proved",
   "theorems": [
    "c187_batch",
    "c187_mismatch"
   ],
   "note": ""
  },
  {
   "property": "C188",
   "status": "proved",
   "theorems": [
    "c188_entries",
    "c188_peak",
    "c188_normalised"
   ],
   "note": "Exact reals: in floating point the test 'count < 1.0 -> 0' of the FFT counts can drop a count of one."
  },
  {
   "property": "C189",
   "status": "partial",
   "theorems": [
    "c189_chunked_refuted",
    "c189_constant_marginal_refuted",
    "c189_value_one_refuted",
    "c189_mask_refuted"
   ],
   "note": "REFUTED, one theorem each: (chunks) range(1, bins, chunk) misses the last level when chunk_size divides bins - 1, e.g. 9 bins and chunk size 8, giving twice the entropy; (constant_marginal) the marginal uses bins * value * 0.99999, the joint bins * value, so a value on a bin edge is binned differently; (1.0) belongs to no level; (masks) enter the marginals only, not the joint histogram. Odd widths: irfft2 without a size returns an even number of columns."
  },
  {
   "property": "C190",
   "status": "proved",
   "theorems": [
    "c190_position_formula",
    "c190_positions_distinct_and_ordered",
    "c190_positions_dense",
    "c190_inverse",
    "c190_inverse_any_rounding",
    "c190_int32_exact",
    "c190_int32_limit"
   ],
   "note": ""
  },
  {
   "property": "C191",
   "status": "proved",
   "theorems": [
    "c191_signed_log_sum",
    "c191_sign_flag"
   ],
   "note": ""
  },
  {
   "property": "C192",
   "status": "proved",
   "theorems": [
    "c192_table_below_half_pi",
    "c192_table_above_half_pi",
    "c192_table_at_half_pi"
   ],
   "note": ""
  },
  {
   "property": "C193",
   "status": "partial",
   "theorems": [
    "c193_zero_angle_refuted",
    "c193_zero_angle_nan"
   ],
   "note": "REFUTED: at beta = 0 the log power table contains 0 * log(0) = NaN, so every entry d^m_mm is NaN (c193_zero_angle_nan, for every L)."
  },
  {
   "property": "C194",
   "status": "proved",
   "theorems": [
    "c194_lookup_all_signs",
    "c194_transpose",
    "c194_negate_both",
    "c194_negate_one_half_pi"
   ],
   "note": ""
  },
  {
   "property": "C195",
   "status": "proved",
   "theorems": [
    "c195_weights_exist",
    "c195_rows",
    "c195_block_diagonal",
    "c195_edmonds"
   ],
   "note": ""
  },
  {
   "property": "C196",
   "status": "proved",
   "theorems": [
    "c196_grid",
    "c196_xyz_unit",
    "c196_exact_on_cosines",
    "c196_exact_on_products",
    "c196_orthogonal",
    "c196_weights_sum"
   ],
   "note": ""
  },
  {
   "property": "C197",
   "status": "proved",
   "theorems": [
    "c197_dct_orthogonal",
    "c197_dst_orthogonal",
    "c197_layers"
   ],
   "note": ""
  },
  {
   "property": "C198",
   "status": "proved",
   "theorems": [
    "c198_isht_synthesis",
    "c198_fsht_analysis",
    "c198_round_trip",
    "c198_exact"
   ],
   "note": ""
  },
  {
   "property": "C199",
   "status": "proved",
   "theorems": [
    "c199_agrees_with_complex",
    "c199_isht_synthesis",
    "c199_round_trip",
    "c199_lower"
   ],
   "note": ""
  },
  {
   "property": "C200",
   "status": "proved",
   "theorems": [
    "c200_complex_signals",
    "c200_real_signals",
    "c200_real_is_complex",
    "c200_batches"
   ],
   "note": ""
  },
  {
   "property": "C201",
   "status": "partial",
   "theorems": [
    "c201_fast_is_the_correlation_refuted",
    "c201_every_bandwidth",
    "c201_zonal_partial"
   ],
   "note": "REFUTED: the coefficients of negative order of g (g_n_aug) are computed and then not used; for every B >= 2 the signal with the single coefficient (1,1) has self-correlation -2 in voxel (0,0,0) while rs2cc_fast_ gives 0. c201_zonal_partial: they agree when g has no coefficient of positive order."
  },
  {
   "property": "C202",
   "status": "proved",
   "theorems": [
    "c202_complex_bound",
    "c202_real_bound",
    "c202_attained"
   ],
   "note": ""
  },
  {
   "property": "C203",
   "status": "proved",
   "theorems": [
    "c203_both_hemispheres",
    "c203_one_hemisphere"
   ],
   "note": ""
  },
  {
   "property": "C204",
   "status": "proved",
   "theorems": [
    "c204_wave_per_depth",
    "c204_single_bin",
    "c204_slabs_compose"
   ],
   "note": ""
  },
  {
   "property": "C205",
   "status": "proved",
   "theorems": [
    "c205_exact_for_quadratics",
    "c205_exact_for_cubics_on_uniform_grids",
    "c205_linear",
    "c205_errors"
   ],
   "note": ""
  },
  {
   "property": "C206",
   "status": "partial",
   "theorems": [
    "c206_nonnegative_integral_refuted",
    "c206_moderate_grids"
   ],
   "note": "REFUTED: on the default logarithmic grid the third sample has a negative weight (the first two intervals differ by a factor of more than 20). c206_moderate_grids proves the claim for grids whose neighbouring intervals differ by at most a factor of two."
  },
  {
   "property": "C207",
   "status": "proved",
   "theorems": [
    "c207_lvd_real_factor"
   ],
   "note": ""
  },
  {
   "property": "C208",
   "status": "proved",
   "theorems": [
    "c208_wk_real_factor"
   ],
   "note": ""
  },
  {
   "property": "C209",
   "status": "partial",
   "theorems": [
    "c209_wk_monotone_refuted"
   ],
   "note": "REFUTED: where b S^2 crosses 0.1 the branch changes from a second-order series (0.095) to the exponential (0.0952), an upward jump; witness hydrogen at S = 0.1548."
  },
  {
   "property": "C210",
   "status": "partial",
   "theorems": [
    "c210_too_large",
    "c210_too_large_lvd",
    "c210_nonpositive_rejected_refuted"
   ],
   "note": "REFUTED for zero and negative numbers: they silently use the rows counted from the end of the table (Z = 0 is element 98 or 102). Proved: too large numbers raise IndexError, including 99..102 in the hybrid function."
  },
  {
   "property": "C211",
   "status": "partial",
   "theorems": [
    "c211_scalar_sigma_refuted"
   ],
   "note": "REFUTED: one displacement with two or more elements raises RuntimeError in all three functions, for every non-empty g."
  },
  {
   "property": "C212",
   "status": "partial",
   "theorems": [
    "c212_lvd_voltages_refuted"
   ],
   "note": "REFUTED: with two or more voltages the call raises RuntimeError unless N_g = N_V, and then the absorption of entry (v, z, g) is divided by the wave number of voltage number g: it is the single-voltage value times lambda(g)/lambda(v)."
  },
  {
   "property": "C213",
   "status": "proved",
   "theorems": [
    "c213_finite_and_signs",
    "c213_clamp_only_negative"
   ],
   "note": ""
  },
  {
   "property": "C214",
   "status": "partial",
   "theorems": [
    "c214_lvd_absorption_nonnegative_refuted"
   ],
   "note": "REFUTED: for every element, displacement and voltage it is negative whenever a uniform range [0, hi] has 32 hi^2 < g^2 (for instance hi = 1, g = 8)."
  },
  {
   "property": "C215",
   "status": "proved",
   "theorems": [
    "c215_exp1_accurate",
    "c215_exp1_edges"
   ],
   "note": ""
  },
  {
   "property": "C216",
   "status": "proved",
   "theorems": [
    "c216_expi_accurate",
    "c216_expi_edges",
    "c216_differences"
   ],
   "note": ""
  },
  {
   "property": "C217",
   "status": "partial",
   "theorems": [
    "c217_single_precision_refuted"
   ],
   "note": "REFUTED: just above 20 the last range is 7e-7 too large (relative)."
  },
  {
   "property": "C218",
   "status": "partial",
   "theorems": [
    "c218_rih2_refuted",
    "c218_rih2_beyond_200"
   ],
   "note": "REFUTED: the offset of the table node is 0.5e-3 idx instead of 5e-3 idx, so that at X = 200/k the value is t_k + 0.9 k (t_{k+1} - t_k) instead of t_k; at X = 25 it is more than 4 % too large. For X > 200 (first interval) it is proved to be within 3e-5."
  },
  {
   "property": "C219",
   "status": "proved",
   "theorems": [
    "c219_phonon_forward",
    "c219_grows_with_displacement",
    "c219_total_positive",
    "c219_all_pairs"
   ],
   "note": ""
  },
  {
   "property": "C220",
   "status": "partial",
   "theorems": [
    "c220_zero_sigma_refuted"
   ],
   "note": "REFUTED: the absorption is NaN for every g and element (0 log 0 at g = 0, inf - inf elsewhere), and the clamp keeps NaN."
  },
  {
   "property": "C221",
   "status": "proved",
   "theorems": [
    "c221_wavelength",
    "c221_three_implementations_agree"
   ],
   "note": ""
  },
  {
   "property": "C222",
   "status": "proved",
   "theorems": [
    "c222_structure_factor_wk"
   ],
   "note": ""
  },
  {
   "property": "C223",
   "status": "partial",
   "theorems": [
    "c223_structure_factor_hybrid_refuted"
   ],
   "note": "REFUTED: the caller multiplies g by 2 pi and the function does so again: the amplitude is taken at 2 pi g and the Debye-Waller exponent is 4 pi^2 times too large, for every g > 0; the result is strictly too small."
  },
  {
   "property": "C224",
   "status": "proved",
   "theorems": [
    "c224_entrywise",
    "c224_lvd_entrywise",
    "c224_names",
    "c224_odd_axes"
   ],
   "note": ""
  },
  {
   "property": "C225",
   "status": "partial",
   "theorems": [
    "c225_unknown_names_refuted"
   ],
   "note": "REFUTED: scatter_factor_WK then returns ITC factors at g/2pi, scatter_factor_LVD the EMsoft factors. The hybrid function does reject (c224_names)."
  },
  {
   "property": "C226",
   "status": "proved",
   "theorems": [
    "c226_norm_keeps_value",
    "c226_norm_normalises",
    "c226_norm_idempotent",
    "c226_normal_form_unique",
    "c226_trig_powers",
    "c226_half_powers",
    "c226_table_lengths"
   ],
   "note": ""
  },
  {
   "property": "C227",
   "status": "proved",
   "theorems": [
    "c227_same_exponent",
    "c227_float64_neighbours",
    "c227_small_absolute_error"
   ],
   "note": ""
  },
  {
   "property": "C228",
   "status": "partial",
   "theorems": [
    "c228_represented_value_refuted",
    "c228_default_type_zero",
    "c228_float64_refuted",
    "c228_float64_exponents_merge"
   ],
   "note": "REFUTED: 2.0**IND with an int32 IND is computed in torch's default type; in float32 2^460 is infinite and 2^-460 is zero, so (1, -1) gives 0 and (1, 1) gives infinity. In float64 every negative exponent is treated as -1: (1, -2) gives 2^-460 instead of 2^-920."
  },
  {
   "property": "C229",
   "status": "proved",
   "theorems": [
    "c229_same_exponent",
    "c229_neighbours_float64",
    "c229_far_exponents"
   ],
   "note": ""
  },
  {
   "property": "C230",
   "status": "partial",
   "theorems": [
    "c230_default_type_refuted",
    "c230_zero_swallows_refuted"
   ],
   "note": "REFUTED: in torch's default float32 the term with the smaller exponent is multiplied by zero: 2^-230 + 2^-231 gives 2^-230. With any default type a zero with a larger exponent swallows the other term: (0, 0) + (1, -2) is 0."
  },
  {
   "property": "C231",
   "status": "proved",
   "theorems": [
    "c231_table_accuracy",
    "c231_orders_up_to_32"
   ],
   "note": "Errors of single operations are amplified by the recursion coefficients in the proof (worst case), which is why the order is limited; C232 shows that the relative error is not small in general."
  },
  {
   "property": "C232",
   "status": "partial",
   "theorems": [
    "c232_relative_accuracy_refuted",
    "c232_default_type_loses_recursion_term",
    "c232_far_exponent_refuted"
   ],
   "note": "REFUTED: with torch's default float32 the second term of the recursion is lost when the exponents differ by one (d^4_20 is 7/6 or more of its value at the angle with d^2_20 = 2^-231); entries below 2^-690 come out as 0, or 2^460 times too large in float64 (2^-750 is reported as 2^-290)."
  },
  {
   "property": "C233",
   "status": "partial",
   "theorems": [
    "c233_end_points_refuted",
    "c233_zero_gives_nan",
    "c233_pi_refuted"
   ],
   "note": "REFUTED: at 0 every entry is NaN (log2 of zero times zero); at pi the seeds are computed with the half powers, which belong to pi/2: entry (1,1,0) is sqrt(2)/2 instead of 0."
  },
  {
   "property": "C234",
   "status": "proved",
   "theorems": [
    "c234_lookup"
   ],
   "note": ""
  },
  {
   "property": "C235",
   "status": "partial",
   "theorems": [
    "c235_negative_orders_refuted",
    "c235_reads_another_entry"
   ],
   "note": "REFUTED: signs are ignored in the position: (1, 1, -1) reads the entry of (1, 0, 0) and gives 0 instead of 1/2."
  },
  {
   "property": "C236",
   "status": "proved",
   "theorems": [
    "c236_mutually_inverse",
    "c236_radial",
    "c236_cube_symmetric",
    "c236_other_groups_rejected",
    "c236_every_point_is_sorted_somehow"
   ],
   "note": ""
  },
  {
   "property": "C237",
   "status": "partial",
   "theorems": [
    "c237_cube_into_zone_refuted",
    "c237_directions_exchanged",
    "c237_zone_is_the_tested_one"
   ],
   "note": "REFUTED: the directions are exchanged (the corner of the cube is moved outwards). Proved instead: rfz_to_cube(x) is in the zone exactly if x is in the cube, cube_to_rfz(x) is in the cube exactly if x is in the zone; the zone is the one ori_in_fz_laue tests for id 11."
  },
  {
   "property": "C238",
   "status": "proved",
   "theorems": [
    "c238_hsl_color"
   ],
   "note": "Below 1/2 and above 1 see C241 and C243; the rotated direction must have its representative inside the sector by more than the tolerance (on the boundary the reshape in s2_to_fz_laue raises, C15)."
  },
  {
   "property": "C239",
   "status": "proved",
   "theorems": [
    "c239_color_is_symmetric"
   ],
   "note": ""
  },
  {
   "property": "C240",
   "status": "partial",
   "theorems": [
    "c240_equivalent_orientations_refuted"
   ],
   "note": "REFUTED: ori_equiv_laue multiplies by the symmetry on the right while the colour rotates the direction by q itself (not its inverse), so the symmetry acts on the reference direction: q = (4/5, 0, 0, 3/5), direction (1, 2, 2)/3, three-fold axis 111 give a colour with and without a channel at 255."
  },
  {
   "property": "C241",
   "status": "partial",
   "theorems": [
    "c241_dark_hsl_refuted"
   ],
   "note": "REFUTED for every such orientation: the saturation of the intermediate HSV colour is not divided by the value, so the smallest channel is 2L(1-2L) instead of 0 and the bytes differ."
  },
  {
   "property": "C242",
   "status": "proved",
   "theorems": [
    "c242_bytes_determined"
   ],
   "note": ""
  },
  {
   "property": "C243",
   "status": "partial",
   "theorems": [
    "c243_bytes_determined_refuted"
   ],
   "note": "REFUTED for each of the eight ids: azimuths above 1 rad (or negative, for the trigonal sectors) give channels above 255 or below 0, whose conversion to unsigned byte is undefined."
  },
  {
   "property": "C244",
   "status": "proved",
   "theorems": [
    "c244_ho2ax_recovers_rotation",
    "c244_ax2ho_roundtrip",
    "c244_slow_mode"
   ],
   "note": "Rounding of floating-point arithmetic is not modelled; the bounds are those of the fits. Smaller rotations: C249."
  },
  {
   "property": "C245",
   "status": "proved",
   "theorems": [
    "c245_kikuchipy",
    "c245_emsoft",
    "c245_error_iff_unknown"
   ],
   "note": ""
  },
  {
   "property": "C246",
   "status": "proved",
   "theorems": [
    "c246_into_homochoric",
    "c246_into_cubochoric"
   ],
   "note": "Half turns are excluded because om2ax is NaN there (C73) and the quaternion is only unique up to sign; negative real parts: C76."
  },
  {
   "property": "C247",
   "status": "proved",
   "theorems": [
    "c247_out_of_homochoric",
    "c247_out_of_cubochoric",
    "c247_quaternion_roundtrips"
   ],
   "note": ""
  },
  {
   "property": "C248",
   "status": "proved",
   "theorems": [
    "c248_newton_angle"
   ],
   "note": "The axis it returns has the wrong length: C77."
  },
  {
   "property": "C249",
   "status": "partial",
   "theorems": [
    "c249_small_rotations_lost",
    "c249_small_rotations_lost_reference",
    "c249_roundtrip_refuted"
   ],
   "note": "REFUTED: every rotation by less than 0.002 rad (0.0002 rad for ho2ax_reference) is returned as the identity, with axis (0, 0, 1): the thresholds 1e-6 and 1e-8 are compared with the squared radius."
  },
  {
   "property": "C250",
   "status": "proved",
   "theorems": [
    "c250_accumulation",
    "c250_terminates"
   ],
   "note": "What a launch returns is a quantified argument of the accumulator's shape; float32 rounding of large counts is not modelled."
  },
  {
   "property": "C251",
   "status": "partial",
   "theorems": [
    "c251_always_returns_refuted",
    "c251_no_electrons_never_returns",
    "c251_zero_steps_count_nothing"
   ],
   "note": "REFUTED: when the launches contribute no retained count (no electrons, n_max_steps_override=0, only dropped energies) the loop runs forever for every number of iterations; c251_zero_steps_count_nothing exhibits such a launch."
  },
  {
   "property": "C252",
   "status": "proved",
   "theorems": [
    "c252_energy_rows"
   ],
   "note": ""
  },
  {
   "property": "C253",
   "status": "partial",
   "theorems": [
    "c253_beam_energy_refuted"
   ],
   "note": "REFUTED: electrons start at kV + n_energy_bins_extra * binsize_exit_energy (32 keV for a 30 kV simulation with the defaults); equal to kV exactly when n_energy_bins_extra is 0."
  },
  {
   "property": "C254",
   "status": "proved",
   "theorems": [
    "c254_step_search",
    "c254_override"
   ],
   "note": ""
  },
  {
   "property": "C255",
   "status": "partial",
   "theorems": [
    "c255_steps_suffice_refuted"
   ],
   "note": "REFUTED: when no candidate fills the marginal 2000 is returned without any report."
  },
  {
   "property": "C256",
   "status": "proved",
   "theorems": [
    "c256_resample",
    "c256_normalised",
    "c256_rejected"
   ],
   "note": "Exact reals; the number of bin edges in floating point is C260."
  },
  {
   "property": "C257",
   "status": "partial",
   "theorems": [
    "c257_counts_preserved_refuted"
   ],
   "note": "REFUTED: the values are counts per nm and are never multiplied by linear_binsize: 7 counts in three bins become 14."
  },
  {
   "property": "C258",
   "status": "partial",
   "theorems": [
    "c258_out_of_range_refuted"
   ],
   "note": "REFUTED: _interpquad ignores extrapolate='error' and extrapolates the last parabola: more than 100 counts per nm at 50 nm from a histogram that ends at 7 nm."
  },
  {
   "property": "C259",
   "status": "partial",
   "theorems": [
    "c259_linear_between_neighbours_refuted"
   ],
   "note": "REFUTED: the segment to the right is used (C135): densities 0 and 1 give 4/3."
  },
  {
   "property": "C260",
   "status": "partial",
   "theorems": [
    "c260_edge_count_refuted",
    "c260_exact_steps"
   ],
   "note": "REFUTED with round-to-nearest double arithmetic in the length of torch.arange: 199 bins of the default size 0.1 give 201 edges, so the division by 200 sizes fails; c260_exact_steps proves the count right when the products are exactly representable (for example binsize 0.25)."
  },
  {
   "property": "C261",
   "status": "proved",
   "theorems": [
    "c261_mirrored_trial",
    "c261_same_exit_mirrored",
    "c261_recorded_cell"
   ],
   "note": ""
  },
  {
   "property": "C262",
   "status": "partial",
   "theorems": [
    "c262_energy_rows_refuted"
   ],
   "note": "REFUTED: kV=30 with a step of 0.1 (any double nearest to 1/10) gives 299 rows: // divides by the stored double, which exceeds 0.1, so the lowest energies have no row."
  },
  {
   "property": "C263",
   "status": "proved",
   "theorems": [
    "c263_clean_succeeds"
   ],
   "note": "Exact reals: in float32 a value may round up to 1; NaN pixels excluded."
  },
  {
   "property": "C264",
   "status": "proved",
   "theorems": [
    "c264_background_has_no_effect"
   ],
   "note": "Exact reals (float32 subtraction cancels only approximately)."
  },
  {
   "property": "C265",
   "status": "partial",
   "theorems": [
    "c265_single_pattern_erased_refuted"
   ],
   "note": "REFUTED: a scan of one pattern is its own mean; the cleaned pattern is 0 in every pixel, whatever it was."
  },
  {
   "property": "C266",
   "status": "proved",
   "theorems": [
    "c266_size",
    "c266_brightness_and_contrast",
    "c266_constant_stays_constant",
    "c266_overshoot_bounded",
    "c266_mirror"
   ],
   "note": "mode='bicubic' (the default); exact reals. Flips with align_corners=True need at least two output samples per axis."
  },
  {
   "property": "C267",
   "status": "partial",
   "theorems": [
    "c267_range_kept_refuted"
   ],
   "note": "REFUTED: bicubic interpolation overshoots next to an edge: with the default factor 2 a vertical 0/1 edge gives a column of pixels above 1."
  },
  {
   "property": "C268",
   "status": "partial",
   "theorems": [
    "c268_exact_multiples_refuted"
   ],
   "note": "REFUTED with round-to-nearest doubles: int(98 * (1/49)) is 1, not 2."
  },
  {
   "property": "C269",
   "status": "proved",
   "theorems": [
    "c269_average_of_stored_neighbours",
    "c269_scans_only"
   ],
   "note": "When NLPAR's arithmetic is undefined (C105-C107) the call fails or returns NaN; exact reals."
  },
  {
   "property": "C270",
   "status": "proved",
   "theorems": [
    "c270_quantised_search_near_exact",
    "c270_clear_winners_are_found"
   ],
   "note": "The product is an arbitrary function of (call, query, row); its error bound is a hypothesis (FBGEMM is not modelled). Every chunk is searched with the whole query set, once."
  },
  {
   "property": "C271",
   "status": "proved",
   "theorems": [
    "c271_values_in_range",
    "c271_pixel_of_grain",
    "c271_volume_change_invisible",
    "c271_rotation_part_is_orientation"
   ],
   "note": "mode='bilinear', virtual_binning=1; coordinates without NaN; exact reals."
  },
  {
   "property": "C272",
   "status": "partial",
   "theorems": [
    "c272_one_batch_dimension",
    "c272_other_shapes_refuted"
   ],
   "note": "REFUTED: exactly one batch dimension works; a single pair of points (3,) and two or more batch dimensions raise, because the output is allocated with points_start.shape[0] rows. torch's indexing and broadcasting rules are modelled on shapes."
  },
  {
   "property": "C273",
   "status": "proved",
   "theorems": [
    "c273_product_error",
    "c273_standardised_product",
    "c273_product_in_doubles",
    "c273_chain_drift",
    "c273_million_products"
   ],
   "note": "Rounding is a relation between the exact and the rounded result of one operation; the double precision instance is rounding to a nearest double, related to the error model through Flocq's generic rounding."
  },
  {
   "property": "C274",
   "status": "proved",
   "theorems": [
    "c274_rotation_error",
    "c274_rotation_in_doubles"
   ],
   "note": "Same rounding model; the first product is stored and used three times, as in the code."
  },
  {
   "property": "C275",
   "status": "partial",
   "theorems": [
    "c275_short_vectors_refuted"
   ],
   "note": "REFUTED for the code: theorem c275_short_vectors_refuted gives a whole interval of counterexamples; C274 is the absolute bound that does hold."
  },
  {
   "property": "C276",
   "status": "proved",
   "theorems": [
    "c276_rounded_inner_product",
    "c276_float_search_near_exact"
   ],
   "note": "The run uses the model's arbitrary-product search of C270 (for the angular metric the quantised and unquantised code differ only in the product)."
  },
  {
   "property": "C277",
   "status": "proved",
   "theorems": [
    "c277_disorientation_cosine",
    "c277_angle_is_a_number"
   ],
   "note": "The stored group elements, the two float products before the real part and the maximum are all modelled; acos itself is exact."
  },
  {
   "property": "C278",
   "status": "partial",
   "theorems": [
    "c278_self_disorientation_refuted"
   ],
   "note": "REFUTED for the code: theorem c278_self_disorientation_refuted; the missing clamp is laue_fz_ori.py:469 and laue_fz_misori.py:203."
  },
  {
   "property": "C279",
   "status": "proved",
   "theorems": [
    "c279_beam_direction",
    "c279_incidence_angle",
    "c279_untwisted_beam"
   ],
   "note": ""
  },
  {
   "property": "C280",
   "status": "proved",
   "theorems": [
    "c280_depth_scales",
    "c280_same_cells_at_scaled_depth_bins",
    "c280_same_energy_and_direction",
    "c280_two_simulators"
   ],
   "note": "Exact arithmetic; the kernel's trial recursion, with the recorded cell of C261."
  },
  {
   "property": "C281",
   "status": "proved",
   "theorems": [
    "c281_second_structure_matrix",
    "c281_when_defined"
   ],
   "note": "The volume check and NaN volumes are in C149; the entries' NaN pattern is abstracted to 'some entry is NaN'."
  },
  {
   "property": "C282",
   "status": "partial",
   "theorems": [
    "c282_no_matrix_for_rhombohedral_groups_refuted",
    "c282_tetragonal_cells_tilted_refuted",
    "c282_rhombohedral_axes_refuted",
    "c282_half_angle_untransposed_is_right"
   ],
   "note": "REFUTED for the code: the seven rhombohedral groups get no second matrix at all, every tetragonal group after 75 gets one that tilts c off z, and the formula takes pi/2 times an angle that is already in radians and transposes both turns, so for group 143 on rhombohedral axes the result is NaN between 2/3 and 4/3 radians and misses z below. c282_half_angle_untransposed_is_right proves the formula with alpha/2 and without the transpositions."
  },
  {
   "property": "C283",
   "status": "proved",
   "theorems": [
    "c283_normalise_error",
    "c283_normalise_in_doubles",
    "c283_normalise_std_in_doubles"
   ],
   "note": "Every operation rounded; the general theorem covers float32 and fused or reordered sums through u and eta. Overflow is excluded by the range of the norm."
  },
  {
   "property": "C284",
   "status": "partial",
   "theorems": [
    "c284_tiny_quaternions_refuted"
   ],
   "note": "REFUTED for the code: when no component exceeds 2^-538 the squares underflow and the quotients are not finite, whatever the order of the sum; the exact formula would give a unit quaternion."
  },
  {
   "property": "C285",
   "status": "proved",
   "theorems": [
    "c285_normalised_disorientation"
   ],
   "note": "Operators stored as nearest doubles; composition of C283 with the error analysis of C277."
  },
  {
   "property": "C286",
   "status": "proved",
   "theorems": [
    "c286_components_at_most_one",
    "c286_rotation_angle_is_a_number"
   ],
   "note": "Every operation rounded to a nearest double, without fused multiply-add and without extended precision."
  },
  {
   "property": "C287",
   "status": "proved",
   "theorems": [
    "c287_rotate_by_normalised"
   ],
   "note": "Composition of C283 with the strengthened C274 (quaternions of norm up to 1 + 1e-12)."
  },
  {
   "property": "C288",
   "status": "proved",
   "theorems": [
    "c288_direction_error",
    "c288_direction_in_doubles"
   ],
   "note": "Relative error bound: the amplification (|p|+|t|)/|Mp+t| is 1 when pixel and translation do not cancel."
  },
  {
   "property": "C289",
   "status": "proved",
   "theorems": [
    "c289_dictionary_direction"
   ],
   "note": "Composition of C288 with C287 through the isometry of qu_apply."
  },
  {
   "property": "C290",
   "status": "proved",
   "theorems": [
    "c290_matrix_error",
    "c290_matrix_in_doubles"
   ],
   "note": "Generic-rounding theorem plus its instance for round-to-nearest doubles."
  },
  {
   "property": "C291",
   "status": "proved",
   "theorems": [
    "c291_matrix_of_normalised",
    "c291_right_handed",
    "c291_geometry_hypothesis"
   ],
   "note": "Composition of C283 and C290; c291_geometry_hypothesis discharges the matrix hypothesis of C288 and C289."
  },
  {
   "property": "C292",
   "status": "proved",
   "theorems": [
    "c292_matrix_of_product"
   ],
   "note": "Composition of C273 and C290; the sign chosen by qu_std does not matter."
  },
  {
   "property": "C293",
   "status": "proved",
   "theorems": [
    "c293_euler_error",
    "c293_euler_in_doubles"
   ],
   "note": "The sign of a real part that is zero up to rounding may differ from exact arithmetic, hence the accuracy is up to a common sign. Generic-rounding theorem plus its double instance."
  },
  {
   "property": "C294",
   "status": "proved",
   "theorems": [
    "c294_euler_matrix_in_doubles"
   ],
   "note": "Composition of C293 and C290."
  }
 ]
}
{
"c01_conj_left_inverse": [
"ClassicalDedekindReals.sig_forall_dec",
"FunctionalExtensionality.functional_extensionality_dep"
],
"c01_conj_reverses_products": [
"ClassicalDedekindReals.sig_forall_dec",
"FunctionalExtensionality.functional_extensionality_dep"
],
"c01_conj_right_inverse": [
"ClassicalDedekindReals.sig_forall_dec",
"FunctionalExtensionality.functional_extensionality_dep"
],
"c01_norm_multiplicative": [
"ClassicalDedekindReals.sig_not_dec",
"ClassicalDedekindReals.sig_forall_dec",
"FunctionalExtensionality.functional_extensionality_dep"
],
"c01_prod_assoc": [
"ClassicalDedekindReals.sig_forall_dec",
"FunctionalExtensionality.functional_extensionality_dep"
],
"c01_prod_is_hamilton": [
"ClassicalDedekindReals.sig_forall_dec",
"FunctionalExtensionality.functional_extensionality_dep"
],
"c01_prod_unit_l": [
"ClassicalDedekindReals.sig_forall_dec",
"FunctionalExtensionality.functional_extensionality_dep"
],
"c01_prod_unit_r": [
"ClassicalDedekindReals.sig_forall_dec",
"FunctionalExtensionality.functional_extensionality_dep"
],
"c02_apply_composition": [
"ClassicalDedekindReals.sig_forall_dec",
"FunctionalExtensionality.functional_extensionality_dep"
],
"c02_apply_is_axis_angle_rotation": [
"ClassicalDedekindReals.sig_not_dec",
"ClassicalDedekindReals.sig_forall_dec",
"FunctionalExtensionality.functional_extensionality_dep"
],
"c02_apply_is_qu2om": [
"ClassicalDedekindReals.sig_forall_dec",
"FunctionalExtensionality.functional_extensionality_dep"
],
"c02_apply_is_sandwich": [
"ClassicalDedekindReals.sig_forall_dec",
"FunctionalExtensionality.functional_extensionality_dep"
],
"c02_apply_linear": [
"ClassicalDedekindReals.sig_forall_dec",
"FunctionalExtensionality.functional_extensionality_dep"
],
"c02_apply_preserves_dot": [
"ClassicalDedekindReals.sig_forall_dec",
"FunctionalExtensionality.functional_extensionality_dep"
],
"c02_apply_preserves_handedness": [
"ClassicalDedekindReals.sig_forall_dec",
"FunctionalExtensionality.functional_extensionality_dep"
],
"c02_conj_undoes": [
"ClassicalDedekindReals.sig_forall_dec",
"FunctionalExtensionality.functional_extensionality_dep"
],
"c02_double_cover": [
"ClassicalDedekindReals.sig_forall_dec",
"FunctionalExtensionality.functional_extensionality_dep"
],
"c02_identity_fixes": [
"ClassicalDedekindReals.sig_forall_dec",
"FunctionalExtensionality.functional_extensionality_dep"
],
"c03_half_turns_have_two_representatives": [
"ClassicalDedekindReals.sig_forall_dec",
"FunctionalExtensionality.functional_extensionality_dep"
],
"c03_norm_direction": [
"ClassicalDedekindReals.sig_not_dec",
"ClassicalDedekindReals.sig_forall_dec",
"FunctionalExtensionality.functional_extensionality_dep"
],
"c03_norm_fixes_unit": [
"ClassicalDedekindReals.sig_not_dec",
"ClassicalDedekindReals.sig_forall_dec",
"FunctionalExtensionality.functional_extensionality_dep"
],
"c03_norm_std": [
"ClassicalDedekindReals.sig_not_dec",
"ClassicalDedekindReals.sig_forall_dec",
"FunctionalExtensionality.functional_extensionality_dep"
],
"c03_norm_unit": [
"ClassicalDedekindReals.sig_not_dec",
"ClassicalDedekindReals.sig_forall_dec",
"FunctionalExtensionality.functional_extensionality_dep"
],
"c03_prod_std": [
"ClassicalDedekindReals.sig_forall_dec",
"FunctionalExtensionality.functional_extensionality_dep"
],
"c03_std_canonical": [
"ClassicalDedekindReals.sig_forall_dec",
"FunctionalExtensionality.functional_extensionality_dep"
],
"c03_std_idempotent": [
"ClassicalDedekindReals.sig_forall_dec",
"FunctionalExtensionality.functional_extensionality_dep"
],
"c03_std_keeps_nonneg": [
"ClassicalDedekindReals.sig_forall_dec",
"FunctionalExtensionality.functional_extensionality_dep"
],
"c03_std_nonneg": [
"ClassicalDedekindReals.sig_forall_dec",
"FunctionalExtensionality.functional_extensionality_dep"
],
"c03_std_same_rotation": [
"ClassicalDedekindReals.sig_forall_dec",
"FunctionalExtensionality.functional_extensionality_dep"
],
"c04_angle_is_rotation_angle": [
"ClassicalDedekindReals.sig_not_dec",
"ClassicalDedekindReals.sig_forall_dec",
"FunctionalExtensionality.functional_extensionality_dep",
"Classical_Prop.classic"
],
"c04_angle_range": [
"ClassicalDedekindReals.sig_not_dec",
"ClassicalDedekindReals.sig_forall_dec",
"FunctionalExtensionality.functional_extensionality_dep",
"Classical_Prop.classic"
],
"c04_axis": [
"ClassicalDedekindReals.sig_forall_dec",
"FunctionalExtensionality.functional_extensionality_dep"
],
"c04_pos_real": [
"ClassicalDedekindReals.sig_forall_dec",
"FunctionalExtensionality.functional_extensionality_dep"
],
"c04_pos_real_abs": [
"ClassicalDedekindReals.sig_forall_dec",
"FunctionalExtensionality.functional_extensionality_dep"
],
"c04_triple": [
"ClassicalDedekindReals.sig_forall_dec",
"FunctionalExtensionality.functional_extensionality_dep"
],
"c05_slerp_constant_speed": [
"ClassicalDedekindReals.sig_not_dec",
"ClassicalDedekindReals.sig_forall_dec",
"FunctionalExtensionality.functional_extensionality_dep",
"Classical_Prop.classic"
],
"c05_slerp_defined": [
"ClassicalDedekindReals.sig_not_dec",
"ClassicalDedekindReals.sig_forall_dec",
"FunctionalExtensionality.functional_extensionality_dep",
"Classical_Prop.classic"
],
"c05_slerp_end": [
"ClassicalDedekindReals.sig_not_dec",
"ClassicalDedekindReals.sig_forall_dec",
"FunctionalExtensionality.functional_extensionality_dep",
"Classical_Prop.classic"
],
"c05_slerp_start": [
"ClassicalDedekindReals.sig_not_dec",
"ClassicalDedekindReals.sig_forall_dec",
"FunctionalExtensionality.functional_extensionality_dep",
"Classical_Prop.classic"
],
"c05_slerp_unit_norm": [
"ClassicalDedekindReals.sig_not_dec",
"ClassicalDedekindReals.sig_forall_dec",
"FunctionalExtensionality.functional_extensionality_dep",
"Classical_Prop.classic"
],
"c06_nearly_antiparallel_refuted": [
"ClassicalDedekindReals.sig_not_dec",
"ClassicalDedekindReals.sig_forall_dec",
"FunctionalExtensionality.functional_extensionality_dep",
"Classical_Prop.classic"
],
"c06_nearly_parallel_error": [
"ClassicalDedekindReals.sig_not_dec",
"ClassicalDedekindReals.sig_forall_dec",
"FunctionalExtensionality.functional_extensionality_dep",
"Classical_Prop.classic"
],
"c06_rotate_sets_antiparallel_refuted": [
"ClassicalDedekindReals.sig_not_dec",
"ClassicalDedekindReals.sig_forall_dec",
"FunctionalExtensionality.functional_extensionality_dep",
"Classical_Prop.classic"
],
"c06_rotate_sets_partial": [
"ClassicalDedekindReals.sig_not_dec",
"ClassicalDedekindReals.sig_forall_dec",
"FunctionalExtensionality.functional_extensionality_dep",
"Classical_Prop.classic"
],
"c07_tables_are_groups": [
"ClassicalDedekindReals.sig_not_dec",
"ClassicalDedekindReals.sig_forall_dec",
"FunctionalExtensionality.functional_extensionality_dep"
],
"c07_tables_are_the_laue_rotations": [
"ClassicalDedekindReals.sig_not_dec",
"ClassicalDedekindReals.sig_forall_dec",
"FunctionalExtensionality.functional_extensionality_dep"
],
"c08_equivalence_relation": [
"ClassicalDedekindReals.sig_not_dec",
"ClassicalDedekindReals.sig_forall_dec",
"FunctionalExtensionality.functional_extensionality_dep"
],
"c08_equivalent_inputs_same_real_part": [
"ClassicalDedekindReals.sig_not_dec",
"ClassicalDedekindReals.sig_forall_dec",
"FunctionalExtensionality.functional_extensionality_dep"
],
"c08_equivalent_inputs_same_result": [
"ClassicalDedekindReals.sig_not_dec",
"ClassicalDedekindReals.sig_forall_dec",
"FunctionalExtensionality.functional_extensionality_dep"
],
"c08_fz_has_largest_real_part": [
"ClassicalDedekindReals.sig_not_dec",
"ClassicalDedekindReals.sig_forall_dec",
"FunctionalExtensionality.functional_extensionality_dep"
],
"c08_fz_has_smallest_angle": [
"ClassicalDedekindReals.sig_not_dec",
"ClassicalDedekindReals.sig_forall_dec",
"FunctionalExtensionality.functional_extensionality_dep",
"Classical_Prop.classic"
],
"c08_fz_idempotent": [
"ClassicalDedekindReals.sig_not_dec",
"ClassicalDedekindReals.sig_forall_dec",
"FunctionalExtensionality.functional_extensionality_dep"
],
"c08_fz_is_equivalent": [
"ClassicalDedekindReals.sig_not_dec",
"ClassicalDedekindReals.sig_forall_dec",
"FunctionalExtensionality.functional_extensionality_dep"
],
"c09_closed_form_agrees_with_brute_force": [
"ClassicalDedekindReals.sig_not_dec",
"ClassicalDedekindReals.sig_forall_dec",
"FunctionalExtensionality.functional_extensionality_dep"
],
"c09_in_fz_meaning": [
"ClassicalDedekindReals.sig_not_dec",
"ClassicalDedekindReals.sig_forall_dec",
"FunctionalExtensionality.functional_extensionality_dep"
],
"c09_negative_real_part_differs": [
"ClassicalDedekindReals.sig_not_dec",
"ClassicalDedekindReals.sig_forall_dec",
"FunctionalExtensionality.functional_extensionality_dep"
],
"c100_copy_never_refreshed": [
"ClassicalDedekindReals.sig_not_dec",
"ClassicalDedekindReals.sig_forall_dec",
"FunctionalExtensionality.functional_extensionality_dep",
"Classical_Prop.classic"
],
"c100_requested_binning_ignored": [
"ClassicalDedekindReals.sig_not_dec",
"ClassicalDedekindReals.sig_forall_dec",
"FunctionalExtensionality.functional_extensionality_dep",
"Classical_Prop.classic"
],
"c100_stale_binning_refuted": [
"ClassicalDedekindReals.sig_not_dec",
"ClassicalDedekindReals.sig_forall_dec",
"FunctionalExtensionality.functional_extensionality_dep",
"Classical_Prop.classic"
],
"c101_exact_at_pixel_centres": [
"ClassicalDedekindReals.sig_not_dec",
"ClassicalDedekindReals.sig_forall_dec",
"FunctionalExtensionality.functional_extensionality_dep",
"Classical_Prop.classic"
],
"c101_interpolated_in_range": [
"ClassicalDedekindReals.sig_not_dec",
"ClassicalDedekindReals.sig_forall_dec",
"FunctionalExtensionality.functional_extensionality_dep",
"Classical_Prop.classic"
],
"c101_length_irrelevant": [
"ClassicalDedekindReals.sig_not_dec",
"ClassicalDedekindReals.sig_forall_dec",
"FunctionalExtensionality.functional_extensionality_dep",
"Classical_Prop.classic"
],
"c101_normalised_ranges": [
"ClassicalDedekindReals.sig_not_dec",
"ClassicalDedekindReals.sig_forall_dec",
"FunctionalExtensionality.functional_extensionality_dep"
],
"c102_binned_seam_refuted": [
"ClassicalDedekindReals.sig_forall_dec",
"FunctionalExtensionality.functional_extensionality_dep"
],
"c102_north_sees_north": [
"ClassicalDedekindReals.sig_not_dec",
"ClassicalDedekindReals.sig_forall_dec",
"FunctionalExtensionality.functional_extensionality_dep",
"Classical_Prop.classic"
],
"c102_seam_refuted": [
"ClassicalDedekindReals.sig_not_dec",
"ClassicalDedekindReals.sig_forall_dec",
"FunctionalExtensionality.functional_extensionality_dep",
"Classical_Prop.classic"
],
"c102_seam_value": [
"ClassicalDedekindReals.sig_not_dec",
"ClassicalDedekindReals.sig_forall_dec",
"FunctionalExtensionality.functional_extensionality_dep",
"Classical_Prop.classic"
],
"c102_south_sees_south": [
"ClassicalDedekindReals.sig_not_dec",
"ClassicalDedekindReals.sig_forall_dec",
"FunctionalExtensionality.functional_extensionality_dep",
"Classical_Prop.classic"
],
"c103_energy_weighted_average": [
"ClassicalDedekindReals.sig_forall_dec",
"FunctionalExtensionality.functional_extensionality_dep"
],
"c103_several_sites_refuted": [
"ClassicalDedekindReals.sig_forall_dec",
"FunctionalExtensionality.functional_extensionality_dep"
],
"c104_empty_interpolation_hangs_refuted": [
"ClassicalDedekindReals.sig_not_dec",
"ClassicalDedekindReals.sig_forall_dec",
"FunctionalExtensionality.functional_extensionality_dep",
"Classical_Prop.classic"
],
"c105_identical_neighbours_refuted": [
"ClassicalDedekindReals.sig_not_dec",
"ClassicalDedekindReals.sig_forall_dec",
"FunctionalExtensionality.functional_extensionality_dep"
],
"c106_dark_border_refuted": [
"ClassicalDedekindReals.sig_not_dec",
"ClassicalDedekindReals.sig_forall_dec",
"FunctionalExtensionality.functional_extensionality_dep"
],
"c107_radius_zero_refuted": [
"ClassicalDedekindReals.sig_not_dec",
"ClassicalDedekindReals.sig_forall_dec",
"FunctionalExtensionality.functional_extensionality_dep"
],
"c108_odd_size_refuted": [
"ClassicalDedekindReals.sig_not_dec",
"ClassicalDedekindReals.sig_forall_dec",
"FunctionalExtensionality.functional_extensionality_dep"
],
"c109_default_reaches_edges": [
"ClassicalDedekindReals.sig_forall_dec",
"FunctionalExtensionality.functional_extensionality_dep"
],
"c109_mask_grows_with_radius": [
"ClassicalDedekindReals.sig_forall_dec",
"FunctionalExtensionality.functional_extensionality_dep"
],
"c109_mask_is_disc": [
"ClassicalDedekindReals.sig_not_dec",
"ClassicalDedekindReals.sig_forall_dec",
"FunctionalExtensionality.functional_extensionality_dep"
],
"c109_mask_symmetric": [
"ClassicalDedekindReals.sig_forall_dec",
"FunctionalExtensionality.functional_extensionality_dep"
],
"c109_mask_transposes": [
"ClassicalDedekindReals.sig_forall_dec",
"FunctionalExtensionality.functional_extensionality_dep"
],
"c10_reduced_is_inside": [
"ClassicalDedekindReals.sig_not_dec",
"ClassicalDedekindReals.sig_forall_dec",
"FunctionalExtensionality.functional_extensionality_dep"
],
"c110_thin_mask_empty_refuted": [
"ClassicalDedekindReals.sig_forall_dec",
"FunctionalExtensionality.functional_extensionality_dep"
],
"c111_short_last_chunk_always": [
"ClassicalDedekindReals.sig_forall_dec",
"FunctionalExtensionality.functional_extensionality_dep"
],
"c111_short_last_chunk_refuted": [
"ClassicalDedekindReals.sig_forall_dec",
"FunctionalExtensionality.functional_extensionality_dep"
],
"c112_flag_irrelevant_for_angular": [
"ClassicalDedekindReals.sig_forall_dec",
"FunctionalExtensionality.functional_extensionality_dep"
],
"c112_mean_flag_refuted": [
"ClassicalDedekindReals.sig_forall_dec",
"FunctionalExtensionality.functional_extensionality_dep"
],
"c113_exact_copy_distances": [
"ClassicalDedekindReals.sig_forall_dec",
"FunctionalExtensionality.functional_extensionality_dep"
],
"c113_exact_copy_equal_norms": [
"ClassicalDedekindReals.sig_forall_dec",
"FunctionalExtensionality.functional_extensionality_dep"
],
"c113_exact_copy_refuted": [
"ClassicalDedekindReals.sig_forall_dec",
"FunctionalExtensionality.functional_extensionality_dep"
],
"c114_scan_positions_refuted": [],
"c115_gain_offset": [
"ClassicalDedekindReals.sig_forall_dec",
"FunctionalExtensionality.functional_extensionality_dep"
],
"c115_gain_offset_of_a_run": [
"ClassicalDedekindReals.sig_forall_dec",
"FunctionalExtensionality.functional_extensionality_dep"
],
"c116_pca_binning_refuted": [
"ClassicalDedekindReals.sig_forall_dec",
"FunctionalExtensionality.functional_extensionality_dep"
],
"c117_radius_zero": [
"ClassicalDedekindReals.sig_not_dec",
"ClassicalDedekindReals.sig_forall_dec",
"FunctionalExtensionality.functional_extensionality_dep",
"Classical_Prop.classic"
],
"c117_zero_offset_present_refuted": [
"ClassicalDedekindReals.sig_not_dec",
"ClassicalDedekindReals.sig_forall_dec",
"FunctionalExtensionality.functional_extensionality_dep",
"Classical_Prop.classic"
],
"c118_better_neighbour_found_refuted": [
"ClassicalDedekindReals.sig_not_dec",
"ClassicalDedekindReals.sig_forall_dec",
"FunctionalExtensionality.functional_extensionality_dep",
"Classical_Prop.classic"
],
"c118_small_grids_do_nothing": [
"ClassicalDedekindReals.sig_not_dec",
"ClassicalDedekindReals.sig_forall_dec",
"FunctionalExtensionality.functional_extensionality_dep",
"Classical_Prop.classic"
],
"c119_any_batch_size_refuted": [
"ClassicalDedekindReals.sig_not_dec",
"ClassicalDedekindReals.sig_forall_dec",
"FunctionalExtensionality.functional_extensionality_dep",
"Classical_Prop.classic"
],
"c119_single_pattern_batch_fails": [
"ClassicalDedekindReals.sig_not_dec",
"ClassicalDedekindReals.sig_forall_dec",
"FunctionalExtensionality.functional_extensionality_dep",
"Classical_Prop.classic"
],
"c11_angle_is_minimal": [
"ClassicalDedekindReals.sig_not_dec",
"ClassicalDedekindReals.sig_forall_dec",
"FunctionalExtensionality.functional_extensionality_dep",
"Classical_Prop.classic"
],
"c11_angle_range": [
"ClassicalDedekindReals.sig_not_dec",
"ClassicalDedekindReals.sig_forall_dec",
"FunctionalExtensionality.functional_extensionality_dep",
"Classical_Prop.classic"
],
"c11_angle_symmetric": [
"ClassicalDedekindReals.sig_not_dec",
"ClassicalDedekindReals.sig_forall_dec",
"FunctionalExtensionality.functional_extensionality_dep",
"Classical_Prop.classic"
],
"c11_angle_zero": [
"ClassicalDedekindReals.sig_not_dec",
"ClassicalDedekindReals.sig_forall_dec",
"FunctionalExtensionality.functional_extensionality_dep",
"Classical_Prop.classic"
],
"c11_batch_elementwise": [
"ClassicalDedekindReals.sig_not_dec",
"ClassicalDedekindReals.sig_forall_dec",
"FunctionalExtensionality.functional_extensionality_dep",
"Classical_Prop.classic"
],
"c11_batch_length_mismatch": [
"ClassicalDedekindReals.sig_not_dec",
"ClassicalDedekindReals.sig_forall_dec",
"FunctionalExtensionality.functional_extensionality_dep",
"Classical_Prop.classic"
],
"c11_disorientation_attains_the_angle": [
"ClassicalDedekindReals.sig_not_dec",
"ClassicalDedekindReals.sig_forall_dec",
"FunctionalExtensionality.functional_extensionality_dep",
"Classical_Prop.classic"
],
"c11_left_symmetry_invariant": [
"ClassicalDedekindReals.sig_not_dec",
"ClassicalDedekindReals.sig_forall_dec",
"FunctionalExtensionality.functional_extensionality_dep",
"Classical_Prop.classic"
],
"c11_ori_angle_equals_disori_angle": [
"ClassicalDedekindReals.sig_not_dec",
"ClassicalDedekindReals.sig_forall_dec",
"FunctionalExtensionality.functional_extensionality_dep",
"Classical_Prop.classic"
],
"c11_triangle_inequality": [
"ClassicalDedekindReals.sig_not_dec",
"ClassicalDedekindReals.sig_forall_dec",
"FunctionalExtensionality.functional_extensionality_dep",
"Classical_Prop.classic"
],
"c120_batch_independent_refuted": [
"ClassicalDedekindReals.sig_forall_dec",
"FunctionalExtensionality.functional_extensionality_dep"
],
"c120_index_within_batch": [
"ClassicalDedekindReals.sig_forall_dec",
"FunctionalExtensionality.functional_extensionality_dep"
],
"c121_best_entry_refuted": [
"ClassicalDedekindReals.sig_forall_dec",
"FunctionalExtensionality.functional_extensionality_dep"
],
"c121_negative_scores": [
"ClassicalDedekindReals.sig_forall_dec",
"FunctionalExtensionality.functional_extensionality_dep"
],
"c122_centre_of_window": [
"ClassicalDedekindReals.sig_not_dec",
"ClassicalDedekindReals.sig_forall_dec",
"FunctionalExtensionality.functional_extensionality_dep"
],
"c122_sign_refuted": [
"ClassicalDedekindReals.sig_not_dec",
"ClassicalDedekindReals.sig_forall_dec",
"FunctionalExtensionality.functional_extensionality_dep"
],
"c123_asymmetric_refuted": [
"ClassicalDedekindReals.sig_forall_dec",
"FunctionalExtensionality.functional_extensionality_dep"
],
"c123_zero_lag": [
"ClassicalDedekindReals.sig_forall_dec",
"FunctionalExtensionality.functional_extensionality_dep"
],
"c123_zero_lag_symmetric": [
"ClassicalDedekindReals.sig_forall_dec",
"FunctionalExtensionality.functional_extensionality_dep"
],
"c124_odd_width_refuted": [
"ClassicalDedekindReals.sig_forall_dec",
"FunctionalExtensionality.functional_extensionality_dep"
],
"c125_binned_untouched": [
"ClassicalDedekindReals.sig_forall_dec",
"FunctionalExtensionality.functional_extensionality_dep"
],
"c125_constant_is_nan": [
"ClassicalDedekindReals.sig_forall_dec",
"FunctionalExtensionality.functional_extensionality_dep"
],
"c125_normalised": [
"ClassicalDedekindReals.sig_forall_dec",
"FunctionalExtensionality.functional_extensionality_dep"
],
"c125_unbinned_overwritten_refuted": [
"ClassicalDedekindReals.sig_forall_dec",
"FunctionalExtensionality.functional_extensionality_dep"
],
"c126_padding_in_binned_pixels": [
"ClassicalDedekindReals.sig_forall_dec",
"FunctionalExtensionality.functional_extensionality_dep"
],
"c126_spacing_refuted": [
"ClassicalDedekindReals.sig_forall_dec",
"FunctionalExtensionality.functional_extensionality_dep"
],
"c126_unbinned_value": [
"ClassicalDedekindReals.sig_forall_dec",
"FunctionalExtensionality.functional_extensionality_dep"
],
"c127_compose": [
"ClassicalDedekindReals.sig_not_dec",
"ClassicalDedekindReals.sig_forall_dec",
"FunctionalExtensionality.functional_extensionality_dep"
],
"c127_dictionary": [
"ClassicalDedekindReals.sig_not_dec",
"ClassicalDedekindReals.sig_forall_dec",
"FunctionalExtensionality.functional_extensionality_dep"
],
"c127_nan": [
"ClassicalDedekindReals.sig_not_dec",
"ClassicalDedekindReals.sig_forall_dec",
"FunctionalExtensionality.functional_extensionality_dep"
],
"c127_unit": [
"ClassicalDedekindReals.sig_not_dec",
"ClassicalDedekindReals.sig_forall_dec",
"FunctionalExtensionality.functional_extensionality_dep"
],
"c128_every_electron_counted_refuted": [
"ClassicalDedekindReals.sig_not_dec",
"ClassicalDedekindReals.sig_forall_dec",
"FunctionalExtensionality.functional_extensionality_dep",
"Classical_Prop.classic"
],
"c129_terminates_refuted": [
"ClassicalDedekindReals.sig_not_dec",
"ClassicalDedekindReals.sig_forall_dec",
"FunctionalExtensionality.functional_extensionality_dep",
"Classical_Prop.classic"
],
"c12_orbit": [
"ClassicalDedekindReals.sig_not_dec",
"ClassicalDedekindReals.sig_forall_dec",
"FunctionalExtensionality.functional_extensionality_dep"
],
"c130_condition_needed": [
"ClassicalDedekindReals.sig_not_dec",
"ClassicalDedekindReals.sig_forall_dec",
"FunctionalExtensionality.functional_extensionality_dep",
"Classical_Prop.classic"
],
"c130_counted_energy": [
"ClassicalDedekindReals.sig_not_dec",
"ClassicalDedekindReals.sig_forall_dec",
"FunctionalExtensionality.functional_extensionality_dep",
"Classical_Prop.classic"
],
"c130_step": [
"ClassicalDedekindReals.sig_not_dec",
"ClassicalDedekindReals.sig_forall_dec",
"FunctionalExtensionality.functional_extensionality_dep",
"Classical_Prop.classic"
],
"c131_counts": [],
"c131_distinct_cells": [],
"c131_in_bounds": [
"ClassicalDedekindReals.sig_not_dec",
"ClassicalDedekindReals.sig_forall_dec",
"FunctionalExtensionality.functional_extensionality_dep",
"Classical_Prop.classic"
],
"c131_masked_only_by_energy_or_depth": [
"ClassicalDedekindReals.sig_not_dec",
"ClassicalDedekindReals.sig_forall_dec",
"FunctionalExtensionality.functional_extensionality_dep",
"Classical_Prop.classic"
],
"c132_good_seeds_stay_good": [],
"c133_every_seed_works_refuted": [],
"c134_const": [
"ClassicalDedekindReals.sig_forall_dec",
"FunctionalExtensionality.functional_extensionality_dep"
],
"c134_linear": [
"ClassicalDedekindReals.sig_forall_dec",
"FunctionalExtensionality.functional_extensionality_dep"
],
"c134_quadratic": [
"ClassicalDedekindReals.sig_forall_dec",
"FunctionalExtensionality.functional_extensionality_dep"
],
"c135_error_mode_refuted": [
"ClassicalDedekindReals.sig_forall_dec",
"FunctionalExtensionality.functional_extensionality_dep"
],
"c135_uses_next_segment": [
"ClassicalDedekindReals.sig_forall_dec",
"FunctionalExtensionality.functional_extensionality_dep"
],
"c136_symmetrise": [
"ClassicalDedekindReals.sig_forall_dec",
"FunctionalExtensionality.functional_extensionality_dep"
],
"c137_generated": [
"ClassicalDedekindReals.sig_forall_dec",
"FunctionalExtensionality.functional_extensionality_dep"
],
"c137_space_groups": [
"ClassicalDedekindReals.sig_forall_dec",
"FunctionalExtensionality.functional_extensionality_dep"
],
"c137_tolerance": [
"ClassicalDedekindReals.sig_forall_dec",
"FunctionalExtensionality.functional_extensionality_dep"
],
"c138_allowed_reflections": [
"ClassicalDedekindReals.sig_forall_dec",
"FunctionalExtensionality.functional_extensionality_dep"
],
"c139_homogeneous_refuted": [
"ClassicalDedekindReals.sig_forall_dec",
"FunctionalExtensionality.functional_extensionality_dep"
],
"c13_every_space_group_has_a_class": [],
"c13_invalid_space_group": [],
"c13_space_group_laue_partial": [],
"c13_space_group_laue_refuted": [],
"c140_second_setting_refuted": [],
"c141_classification_refuted": [],
"c142_structure_matrix": [
"ClassicalDedekindReals.sig_not_dec",
"ClassicalDedekindReals.sig_forall_dec",
"FunctionalExtensionality.functional_extensionality_dep"
],
"c142_units": [
"ClassicalDedekindReals.sig_not_dec",
"ClassicalDedekindReals.sig_forall_dec",
"FunctionalExtensionality.functional_extensionality_dep"
],
"c143_round_trip": [
"ClassicalDedekindReals.sig_not_dec",
"ClassicalDedekindReals.sig_forall_dec",
"FunctionalExtensionality.functional_extensionality_dep"
],
"c143_transforms": [
"ClassicalDedekindReals.sig_not_dec",
"ClassicalDedekindReals.sig_forall_dec",
"FunctionalExtensionality.functional_extensionality_dep"
],
"c144_cartesian_to_direct_refuted": [
"ClassicalDedekindReals.sig_not_dec",
"ClassicalDedekindReals.sig_forall_dec",
"FunctionalExtensionality.functional_extensionality_dep"
],
"c144_orthogonal_cells": [
"ClassicalDedekindReals.sig_not_dec",
"ClassicalDedekindReals.sig_forall_dec",
"FunctionalExtensionality.functional_extensionality_dep"
],
"c144_reciprocal_to_cartesian_refuted": [
"ClassicalDedekindReals.sig_not_dec",
"ClassicalDedekindReals.sig_forall_dec",
"FunctionalExtensionality.functional_extensionality_dep"
],
"c145_dot_products": [
"ClassicalDedekindReals.sig_not_dec",
"ClassicalDedekindReals.sig_forall_dec",
"FunctionalExtensionality.functional_extensionality_dep"
],
"c145_lengths_angles": [
"ClassicalDedekindReals.sig_not_dec",
"ClassicalDedekindReals.sig_forall_dec",
"FunctionalExtensionality.functional_extensionality_dep",
"Classical_Prop.classic"
],
"c145_zero_angle_raises": [
"ClassicalDedekindReals.sig_not_dec",
"ClassicalDedekindReals.sig_forall_dec",
"FunctionalExtensionality.functional_extensionality_dep",
"Classical_Prop.classic"
],
"c146_cross_defined": [
"ClassicalDedekindReals.sig_not_dec",
"ClassicalDedekindReals.sig_forall_dec",
"FunctionalExtensionality.functional_extensionality_dep"
],
"c146_cross_products": [
"ClassicalDedekindReals.sig_not_dec",
"ClassicalDedekindReals.sig_forall_dec",
"FunctionalExtensionality.functional_extensionality_dep"
],
"c147_cross_direct_to_cartesian_refuted": [
"ClassicalDedekindReals.sig_not_dec",
"ClassicalDedekindReals.sig_forall_dec",
"FunctionalExtensionality.functional_extensionality_dep"
],
"c147_cross_other_outputs_refuted": [
"ClassicalDedekindReals.sig_not_dec",
"ClassicalDedekindReals.sig_forall_dec",
"FunctionalExtensionality.functional_extensionality_dep"
],
"c148_change_of_frame_refuted": [
"ClassicalDedekindReals.sig_forall_dec",
"FunctionalExtensionality.functional_extensionality_dep"
],
"c148_orthogonal_frames": [
"ClassicalDedekindReals.sig_forall_dec",
"FunctionalExtensionality.functional_extensionality_dep"
],
"c149_flat_cells_rejected": [
"ClassicalDedekindReals.sig_not_dec",
"ClassicalDedekindReals.sig_forall_dec",
"FunctionalExtensionality.functional_extensionality_dep"
],
"c149_impossible_cells_rejected_refuted": [
"ClassicalDedekindReals.sig_not_dec",
"ClassicalDedekindReals.sig_forall_dec",
"FunctionalExtensionality.functional_extensionality_dep"
],
"c14_agrees_with_space_group": [],
"c14_point_group_laue": [],
"c14_unknown_point_group": [],
"c150_average_refuted": [
"ClassicalDedekindReals.sig_forall_dec",
"FunctionalExtensionality.functional_extensionality_dep"
],
"c150_off_by_site_count": [
"ClassicalDedekindReals.sig_forall_dec",
"FunctionalExtensionality.functional_extensionality_dep"
],
"c150_single_full_site": [
"ClassicalDedekindReals.sig_forall_dec",
"FunctionalExtensionality.functional_extensionality_dep"
],
"c151_density": [
"ClassicalDedekindReals.sig_forall_dec",
"FunctionalExtensionality.functional_extensionality_dep"
],
"c151_z2_percent": [
"ClassicalDedekindReals.sig_forall_dec",
"FunctionalExtensionality.functional_extensionality_dep"
],
"c152_orbit": [
"ClassicalDedekindReals.sig_forall_dec",
"FunctionalExtensionality.functional_extensionality_dep"
],
"c153_orbit_distinct_modulo_lattice_refuted": [
"ClassicalDedekindReals.sig_forall_dec",
"FunctionalExtensionality.functional_extensionality_dep"
],
"c154_difference_table": [
"ClassicalDedekindReals.sig_not_dec",
"ClassicalDedekindReals.sig_forall_dec",
"FunctionalExtensionality.functional_extensionality_dep"
],
"c154_differences": [
"ClassicalDedekindReals.sig_not_dec",
"ClassicalDedekindReals.sig_forall_dec",
"FunctionalExtensionality.functional_extensionality_dep"
],
"c154_reflections_sound": [
"ClassicalDedekindReals.sig_not_dec",
"ClassicalDedekindReals.sig_forall_dec",
"FunctionalExtensionality.functional_extensionality_dep"
],
"c155_no_zero_reflection_refuted": [
"ClassicalDedekindReals.sig_not_dec",
"ClassicalDedekindReals.sig_forall_dec",
"FunctionalExtensionality.functional_extensionality_dep"
],
"c156_inner_reflections_present": [
"ClassicalDedekindReals.sig_not_dec",
"ClassicalDedekindReals.sig_forall_dec",
"FunctionalExtensionality.functional_extensionality_dep"
],
"c156_outermost_axial_plane_missing": [
"ClassicalDedekindReals.sig_not_dec",
"ClassicalDedekindReals.sig_forall_dec",
"FunctionalExtensionality.functional_extensionality_dep"
],
"c156_reflections_complete_refuted": [
"ClassicalDedekindReals.sig_not_dec",
"ClassicalDedekindReals.sig_forall_dec",
"FunctionalExtensionality.functional_extensionality_dep"
],
"c156_small_cells_raise": [
"ClassicalDedekindReals.sig_not_dec",
"ClassicalDedekindReals.sig_forall_dec",
"FunctionalExtensionality.functional_extensionality_dep"
],
"c157_hexagonal_axes_refuted": [
"ClassicalDedekindReals.sig_not_dec",
"ClassicalDedekindReals.sig_forall_dec",
"FunctionalExtensionality.functional_extensionality_dep"
],
"c157_lengths_in_degrees": [
"ClassicalDedekindReals.sig_not_dec",
"ClassicalDedekindReals.sig_forall_dec",
"FunctionalExtensionality.functional_extensionality_dep"
],
"c157_positions_refuted": [
"ClassicalDedekindReals.sig_forall_dec",
"FunctionalExtensionality.functional_extensionality_dep"
],
"c157_sites_left_behind_refuted": [
"ClassicalDedekindReals.sig_forall_dec",
"FunctionalExtensionality.functional_extensionality_dep"
],
"c157_transpose_is_right": [
"ClassicalDedekindReals.sig_forall_dec",
"FunctionalExtensionality.functional_extensionality_dep"
],
"c158_regions": [
"ClassicalDedekindReals.sig_not_dec",
"ClassicalDedekindReals.sig_forall_dec",
"FunctionalExtensionality.functional_extensionality_dep",
"Classical_Prop.classic"
],
"c158_square_types": [
"ClassicalDedekindReals.sig_not_dec",
"ClassicalDedekindReals.sig_forall_dec",
"FunctionalExtensionality.functional_extensionality_dep",
"Classical_Prop.classic"
],
"c159_cartesian": [
"ClassicalDedekindReals.sig_not_dec",
"ClassicalDedekindReals.sig_forall_dec",
"FunctionalExtensionality.functional_extensionality_dep"
],
"c159_laue_coverage": [
"ClassicalDedekindReals.sig_not_dec",
"ClassicalDedekindReals.sig_forall_dec",
"FunctionalExtensionality.functional_extensionality_dep",
"Classical_Prop.classic"
],
"c15_covers": [
"ClassicalDedekindReals.sig_not_dec",
"ClassicalDedekindReals.sig_forall_dec",
"FunctionalExtensionality.functional_extensionality_dep",
"Classical_Prop.classic"
],
"c15_equivalence": [
"ClassicalDedekindReals.sig_not_dec",
"ClassicalDedekindReals.sig_forall_dec",
"FunctionalExtensionality.functional_extensionality_dep"
],
"c15_fibonacci_sample_complete": [
"ClassicalDedekindReals.sig_not_dec",
"ClassicalDedekindReals.sig_forall_dec",
"FunctionalExtensionality.functional_extensionality_dep",
"Classical_Prop.classic"
],
"c15_ids": [
"ClassicalDedekindReals.sig_not_dec",
"ClassicalDedekindReals.sig_forall_dec",
"FunctionalExtensionality.functional_extensionality_dep",
"Classical_Prop.classic"
],
"c15_interior_batch": [
"ClassicalDedekindReals.sig_not_dec",
"ClassicalDedekindReals.sig_forall_dec",
"FunctionalExtensionality.functional_extensionality_dep",
"Classical_Prop.classic"
],
"c15_interior_in_sector": [
"ClassicalDedekindReals.sig_not_dec",
"ClassicalDedekindReals.sig_forall_dec",
"FunctionalExtensionality.functional_extensionality_dep",
"Classical_Prop.classic"
],
"c15_interior_unique": [
"ClassicalDedekindReals.sig_not_dec",
"ClassicalDedekindReals.sig_forall_dec",
"FunctionalExtensionality.functional_extensionality_dep",
"Classical_Prop.classic"
],
"c15_samples_in_sector": [
"ClassicalDedekindReals.sig_not_dec",
"ClassicalDedekindReals.sig_forall_dec",
"FunctionalExtensionality.functional_extensionality_dep",
"Classical_Prop.classic"
],
"c15_sound": [
"ClassicalDedekindReals.sig_not_dec",
"ClassicalDedekindReals.sig_forall_dec",
"FunctionalExtensionality.functional_extensionality_dep",
"Classical_Prop.classic"
],
"c160_class_coverage_refuted": [
"ClassicalDedekindReals.sig_not_dec",
"ClassicalDedekindReals.sig_forall_dec",
"FunctionalExtensionality.functional_extensionality_dep",
"Classical_Prop.classic"
],
"c160_emsoft_type": [
"ClassicalDedekindReals.sig_not_dec",
"ClassicalDedekindReals.sig_forall_dec",
"FunctionalExtensionality.functional_extensionality_dep",
"Classical_Prop.classic"
],
"c160_where_it_holds": [
"ClassicalDedekindReals.sig_not_dec",
"ClassicalDedekindReals.sig_forall_dec",
"FunctionalExtensionality.functional_extensionality_dep",
"Classical_Prop.classic"
],
"c161_others_succeed": [
"ClassicalDedekindReals.sig_not_dec",
"ClassicalDedekindReals.sig_forall_dec",
"FunctionalExtensionality.functional_extensionality_dep",
"Classical_Prop.classic"
],
"c161_tetragonal_refuted": [
"ClassicalDedekindReals.sig_not_dec",
"ClassicalDedekindReals.sig_forall_dec",
"FunctionalExtensionality.functional_extensionality_dep",
"Classical_Prop.classic"
],
"c162_unit_iff": [
"ClassicalDedekindReals.sig_not_dec",
"ClassicalDedekindReals.sig_forall_dec",
"FunctionalExtensionality.functional_extensionality_dep",
"Classical_Prop.classic"
],
"c162_unit_refuted": [
"ClassicalDedekindReals.sig_not_dec",
"ClassicalDedekindReals.sig_forall_dec",
"FunctionalExtensionality.functional_extensionality_dep",
"Classical_Prop.classic"
],
"c163_trigonal_coverage_refuted": [
"ClassicalDedekindReals.sig_not_dec",
"ClassicalDedekindReals.sig_forall_dec",
"FunctionalExtensionality.functional_extensionality_dep",
"Classical_Prop.classic"
],
"c164_index_in_table": [
"ClassicalDedekindReals.sig_not_dec",
"ClassicalDedekindReals.sig_forall_dec",
"FunctionalExtensionality.functional_extensionality_dep"
],
"c164_lookup_is_structure_factor": [
"ClassicalDedekindReals.sig_not_dec",
"ClassicalDedekindReals.sig_forall_dec",
"FunctionalExtensionality.functional_extensionality_dep"
],
"c165_beams_distinct_refuted": [
"ClassicalDedekindReals.sig_not_dec",
"ClassicalDedekindReals.sig_forall_dec",
"FunctionalExtensionality.functional_extensionality_dep"
],
"c165_others_distinct": [
"ClassicalDedekindReals.sig_not_dec",
"ClassicalDedekindReals.sig_forall_dec",
"FunctionalExtensionality.functional_extensionality_dep"
],
"c166_sgh_diagonal": [
"ClassicalDedekindReals.sig_not_dec",
"ClassicalDedekindReals.sig_forall_dec",
"FunctionalExtensionality.functional_extensionality_dep"
],
"c166_sgh_hermitian": [
"ClassicalDedekindReals.sig_not_dec",
"ClassicalDedekindReals.sig_forall_dec",
"FunctionalExtensionality.functional_extensionality_dep"
],
"c167_atoms_at_rest": [
"ClassicalDedekindReals.sig_not_dec",
"ClassicalDedekindReals.sig_forall_dec",
"FunctionalExtensionality.functional_extensionality_dep"
],
"c167_emitted_intensity_nonnegative": [
"ClassicalDedekindReals.sig_not_dec",
"ClassicalDedekindReals.sig_forall_dec",
"FunctionalExtensionality.functional_extensionality_dep"
],
"c167_master_pattern_nonnegative": [
"ClassicalDedekindReals.sig_not_dec",
"ClassicalDedekindReals.sig_forall_dec",
"FunctionalExtensionality.functional_extensionality_dep"
],
"c168_friedel_with_absorption": [
"ClassicalDedekindReals.sig_not_dec",
"ClassicalDedekindReals.sig_forall_dec",
"FunctionalExtensionality.functional_extensionality_dep"
],
"c168_friedel_without_absorption": [
"ClassicalDedekindReals.sig_not_dec",
"ClassicalDedekindReals.sig_forall_dec",
"FunctionalExtensionality.functional_extensionality_dep"
],
"c169_centering_extinctions": [
"ClassicalDedekindReals.sig_not_dec",
"ClassicalDedekindReals.sig_forall_dec",
"FunctionalExtensionality.functional_extensionality_dep"
],
"c16_answer_meaning": [
"ClassicalDedekindReals.sig_forall_dec",
"FunctionalExtensionality.functional_extensionality_dep"
],
"c16_answers_agree": [
"ClassicalDedekindReals.sig_forall_dec",
"FunctionalExtensionality.functional_extensionality_dep"
],
"c16_chunked_search_is_exact": [
"ClassicalDedekindReals.sig_forall_dec",
"FunctionalExtensionality.functional_extensionality_dep"
],
"c16_query_pieces_exact": [
"ClassicalDedekindReals.sig_forall_dec",
"FunctionalExtensionality.functional_extensionality_dep"
],
"c170_inside_the_crystal": [
"ClassicalDedekindReals.sig_not_dec",
"ClassicalDedekindReals.sig_forall_dec",
"FunctionalExtensionality.functional_extensionality_dep"
],
"c170_relativistic": [
"ClassicalDedekindReals.sig_not_dec",
"ClassicalDedekindReals.sig_forall_dec",
"FunctionalExtensionality.functional_extensionality_dep"
],
"c170_wavelength": [
"ClassicalDedekindReals.sig_not_dec",
"ClassicalDedekindReals.sig_forall_dec",
"FunctionalExtensionality.functional_extensionality_dep"
],
"c171_scattering_matrix_coefficients": [
"ClassicalDedekindReals.sig_not_dec",
"ClassicalDedekindReals.sig_forall_dec",
"FunctionalExtensionality.functional_extensionality_dep",
"Classical_Prop.classic"
],
"c172_excitation_error_meaning": [
"ClassicalDedekindReals.sig_not_dec",
"ClassicalDedekindReals.sig_forall_dec",
"FunctionalExtensionality.functional_extensionality_dep"
],
"c172_two_excitation_errors_agree": [
"ClassicalDedekindReals.sig_not_dec",
"ClassicalDedekindReals.sig_forall_dec",
"FunctionalExtensionality.functional_extensionality_dep",
"Classical_Prop.classic"
],
"c172_wavevector": [
"ClassicalDedekindReals.sig_not_dec",
"ClassicalDedekindReals.sig_forall_dec",
"FunctionalExtensionality.functional_extensionality_dep"
],
"c172_zero_on_the_ewald_sphere": [
"ClassicalDedekindReals.sig_not_dec",
"ClassicalDedekindReals.sig_forall_dec",
"FunctionalExtensionality.functional_extensionality_dep"
],
"c173_chunk_size_irrelevant": [
"ClassicalDedekindReals.sig_not_dec",
"ClassicalDedekindReals.sig_forall_dec",
"FunctionalExtensionality.functional_extensionality_dep"
],
"c173_deterministic": [
"ClassicalDedekindReals.sig_not_dec",
"ClassicalDedekindReals.sig_forall_dec",
"FunctionalExtensionality.functional_extensionality_dep"
],
"c173_weight_scale_irrelevant": [
"ClassicalDedekindReals.sig_not_dec",
"ClassicalDedekindReals.sig_forall_dec",
"FunctionalExtensionality.functional_extensionality_dep"
],
"c174_always_below_95_percent_refuted": [
"ClassicalDedekindReals.sig_forall_dec",
"FunctionalExtensionality.functional_extensionality_dep"
],
"c174_next_bin_reaches_goal": [
"ClassicalDedekindReals.sig_forall_dec",
"FunctionalExtensionality.functional_extensionality_dep"
],
"c174_shallow_pattern_zero_refuted": [
"ClassicalDedekindReals.sig_forall_dec",
"FunctionalExtensionality.functional_extensionality_dep"
],
"c175_depth_step_ignored_refuted": [
"ClassicalDedekindReals.sig_not_dec",
"ClassicalDedekindReals.sig_forall_dec",
"FunctionalExtensionality.functional_extensionality_dep"
],
"c176_centrosymmetric_crystals": [
"ClassicalDedekindReals.sig_not_dec",
"ClassicalDedekindReals.sig_forall_dec",
"FunctionalExtensionality.functional_extensionality_dep"
],
"c176_dhw_of_inverted_crystal": [
"ClassicalDedekindReals.sig_not_dec",
"ClassicalDedekindReals.sig_forall_dec",
"FunctionalExtensionality.functional_extensionality_dep"
],
"c176_emission_centrosymmetric": [
"ClassicalDedekindReals.sig_not_dec",
"ClassicalDedekindReals.sig_forall_dec",
"FunctionalExtensionality.functional_extensionality_dep"
],
"c177_extinct_reflection_refuted": [
"ClassicalDedekindReals.sig_not_dec",
"ClassicalDedekindReals.sig_forall_dec",
"FunctionalExtensionality.functional_extensionality_dep",
"Classical_Prop.classic"
],
"c177_without_absorption_refuted": [
"ClassicalDedekindReals.sig_not_dec",
"ClassicalDedekindReals.sig_forall_dec",
"FunctionalExtensionality.functional_extensionality_dep",
"Classical_Prop.classic"
],
"c178_no_absorption_refuted": [
"ClassicalDedekindReals.sig_not_dec",
"ClassicalDedekindReals.sig_forall_dec",
"FunctionalExtensionality.functional_extensionality_dep"
],
"c178_one_voltage": [
"ClassicalDedekindReals.sig_not_dec",
"ClassicalDedekindReals.sig_forall_dec",
"FunctionalExtensionality.functional_extensionality_dep"
],
"c178_several_voltages_refuted": [
"ClassicalDedekindReals.sig_not_dec",
"ClassicalDedekindReals.sig_forall_dec",
"FunctionalExtensionality.functional_extensionality_dep"
],
"c179_dhw_of_given_crystal_refuted": [
"ClassicalDedekindReals.sig_not_dec",
"ClassicalDedekindReals.sig_forall_dec",
"FunctionalExtensionality.functional_extensionality_dep"
],
"c17_any_history": [
"ClassicalDedekindReals.sig_forall_dec",
"FunctionalExtensionality.functional_extensionality_dep"
],
"c17_query_before_data": [
"ClassicalDedekindReals.sig_forall_dec",
"FunctionalExtensionality.functional_extensionality_dep"
],
"c17_query_count_checked": [
"ClassicalDedekindReals.sig_forall_dec",
"FunctionalExtensionality.functional_extensionality_dep"
],
"c17_short_chunk_rejected": [
"ClassicalDedekindReals.sig_forall_dec",
"FunctionalExtensionality.functional_extensionality_dep"
],
"c17_unknown_metric": [
"ClassicalDedekindReals.sig_forall_dec",
"FunctionalExtensionality.functional_extensionality_dep"
],
"c180_weights_after_call": [
"ClassicalDedekindReals.sig_forall_dec",
"FunctionalExtensionality.functional_extensionality_dep"
],
"c180_weights_untouched_refuted": [
"ClassicalDedekindReals.sig_forall_dec",
"FunctionalExtensionality.functional_extensionality_dep"
],
"c181_affine": [
"ClassicalDedekindReals.sig_not_dec",
"ClassicalDedekindReals.sig_forall_dec",
"FunctionalExtensionality.functional_extensionality_dep",
"Classical_Prop.classic"
],
"c181_bound": [
"ClassicalDedekindReals.sig_not_dec",
"ClassicalDedekindReals.sig_forall_dec",
"FunctionalExtensionality.functional_extensionality_dep",
"Classical_Prop.classic"
],
"c181_self": [
"ClassicalDedekindReals.sig_not_dec",
"ClassicalDedekindReals.sig_forall_dec",
"FunctionalExtensionality.functional_extensionality_dep",
"Classical_Prop.classic"
],
"c182_at_most_entropy_refuted": [
"ClassicalDedekindReals.sig_not_dec",
"ClassicalDedekindReals.sig_forall_dec",
"FunctionalExtensionality.functional_extensionality_dep",
"Classical_Prop.classic"
],
"c182_independent_zero_refuted": [
"ClassicalDedekindReals.sig_not_dec",
"ClassicalDedekindReals.sig_forall_dec",
"FunctionalExtensionality.functional_extensionality_dep",
"Classical_Prop.classic"
],
"c182_symmetric_refuted": [
"ClassicalDedekindReals.sig_not_dec",
"ClassicalDedekindReals.sig_forall_dec",
"FunctionalExtensionality.functional_extensionality_dep",
"Classical_Prop.classic"
],
"c183_bounds": [
"ClassicalDedekindReals.sig_not_dec",
"ClassicalDedekindReals.sig_forall_dec",
"FunctionalExtensionality.functional_extensionality_dep",
"Classical_Prop.classic"
],
"c183_symmetric": [
"ClassicalDedekindReals.sig_not_dec",
"ClassicalDedekindReals.sig_forall_dec",
"FunctionalExtensionality.functional_extensionality_dep",
"Classical_Prop.classic"
],
"c183_unknown_mode": [
"ClassicalDedekindReals.sig_not_dec",
"ClassicalDedekindReals.sig_forall_dec",
"FunctionalExtensionality.functional_extensionality_dep",
"Classical_Prop.classic"
],
"c183_value": [
"ClassicalDedekindReals.sig_not_dec",
"ClassicalDedekindReals.sig_forall_dec",
"FunctionalExtensionality.functional_extensionality_dep",
"Classical_Prop.classic"
],
"c183_zero_iff_independent": [
"ClassicalDedekindReals.sig_not_dec",
"ClassicalDedekindReals.sig_forall_dec",
"FunctionalExtensionality.functional_extensionality_dep",
"Classical_Prop.classic"
],
"c184_formulas": [
"ClassicalDedekindReals.sig_not_dec",
"ClassicalDedekindReals.sig_forall_dec",
"FunctionalExtensionality.functional_extensionality_dep",
"Classical_Prop.classic"
],
"c184_identical": [
"ClassicalDedekindReals.sig_not_dec",
"ClassicalDedekindReals.sig_forall_dec",
"FunctionalExtensionality.functional_extensionality_dep",
"Classical_Prop.classic"
],
"c184_in_unit_interval": [
"ClassicalDedekindReals.sig_not_dec",
"ClassicalDedekindReals.sig_forall_dec",
"FunctionalExtensionality.functional_extensionality_dep",
"Classical_Prop.classic"
],
"c185_dark_pixels_ignored": [
"ClassicalDedekindReals.sig_not_dec",
"ClassicalDedekindReals.sig_forall_dec",
"FunctionalExtensionality.functional_extensionality_dep",
"Classical_Prop.classic"
],
"c185_exclude": [
"ClassicalDedekindReals.sig_not_dec",
"ClassicalDedekindReals.sig_forall_dec",
"FunctionalExtensionality.functional_extensionality_dep",
"Classical_Prop.classic"
],
"c186_value_one_refuted": [
"ClassicalDedekindReals.sig_not_dec",
"ClassicalDedekindReals.sig_forall_dec",
"FunctionalExtensionality.functional_extensionality_dep",
"Classical_Prop.classic"
],
"c187_batch": [
"ClassicalDedekindReals.sig_not_dec",
"ClassicalDedekindReals.sig_forall_dec",
"FunctionalExtensionality.functional_extensionality_dep",
"Classical_Prop.classic"
],
"c187_mismatch": [
"ClassicalDedekindReals.sig_not_dec",
"ClassicalDedekindReals.sig_forall_dec",
"FunctionalExtensionality.functional_extensionality_dep",
"Classical_Prop.classic"
],
"c188_entries": [
"ClassicalDedekindReals.sig_not_dec",
"ClassicalDedekindReals.sig_forall_dec",
"FunctionalExtensionality.functional_extensionality_dep",
"Classical_Prop.classic"
],
"c188_normalised": [
"ClassicalDedekindReals.sig_not_dec",
"ClassicalDedekindReals.sig_forall_dec",
"FunctionalExtensionality.functional_extensionality_dep",
"Classical_Prop.classic"
],
"c188_peak": [
"ClassicalDedekindReals.sig_not_dec",
"ClassicalDedekindReals.sig_forall_dec",
"FunctionalExtensionality.functional_extensionality_dep",
"Classical_Prop.classic"
],
"c189_chunked_refuted": [
"ClassicalDedekindReals.sig_not_dec",
"ClassicalDedekindReals.sig_forall_dec",
"FunctionalExtensionality.functional_extensionality_dep",
"Classical_Prop.classic"
],
"c189_constant_marginal_refuted": [
"ClassicalDedekindReals.sig_not_dec",
"ClassicalDedekindReals.sig_forall_dec",
"FunctionalExtensionality.functional_extensionality_dep",
"Classical_Prop.classic"
],
"c189_mask_refuted": [
"ClassicalDedekindReals.sig_not_dec",
"ClassicalDedekindReals.sig_forall_dec",
"FunctionalExtensionality.functional_extensionality_dep",
"Classical_Prop.classic"
],
"c189_value_one_refuted": [
"ClassicalDedekindReals.sig_not_dec",
"ClassicalDedekindReals.sig_forall_dec",
"FunctionalExtensionality.functional_extensionality_dep",
"Classical_Prop.classic"
],
"c18_indices_wrap_refuted": [
"ClassicalDedekindReals.sig_forall_dec",
"FunctionalExtensionality.functional_extensionality_dep"
],
"c18_quantised_euclidean_refuted": [
"ClassicalDedekindReals.sig_forall_dec",
"FunctionalExtensionality.functional_extensionality_dep"
],
"c190_int32_exact": [],
"c190_int32_limit": [],
"c190_inverse": [
"ClassicalDedekindReals.sig_not_dec",
"ClassicalDedekindReals.sig_forall_dec",
"FunctionalExtensionality.functional_extensionality_dep",
"Classical_Prop.classic"
],
"c190_inverse_any_rounding": [
"ClassicalDedekindReals.sig_forall_dec",
"FunctionalExtensionality.functional_extensionality_dep"
],
"c190_position_formula": [],
"c190_positions_dense": [],
"c190_positions_distinct_and_ordered": [],
"c191_sign_flag": [
"ClassicalDedekindReals.sig_not_dec",
"ClassicalDedekindReals.sig_forall_dec",
"FunctionalExtensionality.functional_extensionality_dep",
"Classical_Prop.classic"
],
"c191_signed_log_sum": [
"ClassicalDedekindReals.sig_not_dec",
"ClassicalDedekindReals.sig_forall_dec",
"FunctionalExtensionality.functional_extensionality_dep",
"Classical_Prop.classic"
],
"c192_table_above_half_pi": [
"ClassicalDedekindReals.sig_not_dec",
"ClassicalDedekindReals.sig_forall_dec",
"FunctionalExtensionality.functional_extensionality_dep",
"Classical_Prop.classic"
],
"c192_table_at_half_pi": [
"ClassicalDedekindReals.sig_not_dec",
"ClassicalDedekindReals.sig_forall_dec",
"FunctionalExtensionality.functional_extensionality_dep",
"Classical_Prop.classic"
],
"c192_table_below_half_pi": [
"ClassicalDedekindReals.sig_not_dec",
"ClassicalDedekindReals.sig_forall_dec",
"FunctionalExtensionality.functional_extensionality_dep",
"Classical_Prop.classic"
],
"c193_zero_angle_nan": [
"ClassicalDedekindReals.sig_not_dec",
"ClassicalDedekindReals.sig_forall_dec",
"FunctionalExtensionality.functional_extensionality_dep",
"Classical_Prop.classic"
],
"c193_zero_angle_refuted": [
"ClassicalDedekindReals.sig_not_dec",
"ClassicalDedekindReals.sig_forall_dec",
"FunctionalExtensionality.functional_extensionality_dep",
"Classical_Prop.classic"
],
"c194_lookup_all_signs": [
"ClassicalDedekindReals.sig_not_dec",
"ClassicalDedekindReals.sig_forall_dec",
"FunctionalExtensionality.functional_extensionality_dep",
"Classical_Prop.classic"
],
"c194_negate_both": [
"ClassicalDedekindReals.sig_not_dec",
"ClassicalDedekindReals.sig_forall_dec",
"FunctionalExtensionality.functional_extensionality_dep"
],
"c194_negate_one_half_pi": [
"ClassicalDedekindReals.sig_not_dec",
"ClassicalDedekindReals.sig_forall_dec",
"FunctionalExtensionality.functional_extensionality_dep"
],
"c194_transpose": [
"ClassicalDedekindReals.sig_not_dec",
"ClassicalDedekindReals.sig_forall_dec",
"FunctionalExtensionality.functional_extensionality_dep"
],
"c195_block_diagonal": [
"ClassicalDedekindReals.sig_not_dec",
"ClassicalDedekindReals.sig_forall_dec",
"FunctionalExtensionality.functional_extensionality_dep",
"Classical_Prop.classic"
],
"c195_edmonds": [
"ClassicalDedekindReals.sig_not_dec",
"ClassicalDedekindReals.sig_forall_dec",
"FunctionalExtensionality.functional_extensionality_dep",
"Classical_Prop.classic"
],
"c195_rows": [
"ClassicalDedekindReals.sig_not_dec",
"ClassicalDedekindReals.sig_forall_dec",
"FunctionalExtensionality.functional_extensionality_dep",
"Classical_Prop.classic"
],
"c195_weights_exist": [
"ClassicalDedekindReals.sig_not_dec",
"ClassicalDedekindReals.sig_forall_dec",
"FunctionalExtensionality.functional_extensionality_dep",
"Classical_Prop.classic"
],
"c196_exact_on_cosines": [
"ClassicalDedekindReals.sig_not_dec",
"ClassicalDedekindReals.sig_forall_dec",
"FunctionalExtensionality.functional_extensionality_dep",
"Classical_Prop.classic"
],
"c196_exact_on_products": [
"ClassicalDedekindReals.sig_not_dec",
"ClassicalDedekindReals.sig_forall_dec",
"FunctionalExtensionality.functional_extensionality_dep",
"Classical_Prop.classic"
],
"c196_grid": [
"ClassicalDedekindReals.sig_not_dec",
"ClassicalDedekindReals.sig_forall_dec",
"FunctionalExtensionality.functional_extensionality_dep"
],
"c196_orthogonal": [
"ClassicalDedekindReals.sig_not_dec",
"ClassicalDedekindReals.sig_forall_dec",
"FunctionalExtensionality.functional_extensionality_dep",
"Classical_Prop.classic"
],
"c196_weights_sum": [
"ClassicalDedekindReals.sig_not_dec",
"ClassicalDedekindReals.sig_forall_dec",
"FunctionalExtensionality.functional_extensionality_dep"
],
"c196_xyz_unit": [
"ClassicalDedekindReals.sig_not_dec",
"ClassicalDedekindReals.sig_forall_dec",
"FunctionalExtensionality.functional_extensionality_dep"
],
"c197_dct_orthogonal": [
"ClassicalDedekindReals.sig_not_dec",
"ClassicalDedekindReals.sig_forall_dec",
"FunctionalExtensionality.functional_extensionality_dep"
],
"c197_dst_orthogonal": [
"ClassicalDedekindReals.sig_not_dec",
"ClassicalDedekindReals.sig_forall_dec",
"FunctionalExtensionality.functional_extensionality_dep"
],
"c197_layers": [
"ClassicalDedekindReals.sig_not_dec",
"ClassicalDedekindReals.sig_forall_dec",
"FunctionalExtensionality.functional_extensionality_dep"
],
"c198_exact": [
"ClassicalDedekindReals.sig_not_dec",
"ClassicalDedekindReals.sig_forall_dec",
"FunctionalExtensionality.functional_extensionality_dep",
"Classical_Prop.classic"
],
"c198_fsht_analysis": [
"ClassicalDedekindReals.sig_not_dec",
"ClassicalDedekindReals.sig_forall_dec",
"FunctionalExtensionality.functional_extensionality_dep",
"Classical_Prop.classic"
],
"c198_isht_synthesis": [
"ClassicalDedekindReals.sig_not_dec",
"ClassicalDedekindReals.sig_forall_dec",
"FunctionalExtensionality.functional_extensionality_dep",
"Classical_Prop.classic"
],
"c198_round_trip": [
"ClassicalDedekindReals.sig_not_dec",
"ClassicalDedekindReals.sig_forall_dec",
"FunctionalExtensionality.functional_extensionality_dep",
"Classical_Prop.classic"
],
"c199_agrees_with_complex": [
"ClassicalDedekindReals.sig_not_dec",
"ClassicalDedekindReals.sig_forall_dec",
"FunctionalExtensionality.functional_extensionality_dep",
"Classical_Prop.classic"
],
"c199_isht_synthesis": [
"ClassicalDedekindReals.sig_not_dec",
"ClassicalDedekindReals.sig_forall_dec",
"FunctionalExtensionality.functional_extensionality_dep",
"Classical_Prop.classic"
],
"c199_lower": [
"ClassicalDedekindReals.sig_not_dec",
"ClassicalDedekindReals.sig_forall_dec",
"FunctionalExtensionality.functional_extensionality_dep",
"Classical_Prop.classic"
],
"c199_round_trip": [
"ClassicalDedekindReals.sig_not_dec",
"ClassicalDedekindReals.sig_forall_dec",
"FunctionalExtensionality.functional_extensionality_dep",
"Classical_Prop.classic"
],
"c19_correlation": [
"ClassicalDedekindReals.sig_not_dec",
"ClassicalDedekindReals.sig_forall_dec",
"FunctionalExtensionality.functional_extensionality_dep"
],
"c19_covariance_psd": [
"ClassicalDedekindReals.sig_forall_dec",
"FunctionalExtensionality.functional_extensionality_dep"
],
"c19_split_does_not_matter": [
"ClassicalDedekindReals.sig_forall_dec",
"FunctionalExtensionality.functional_extensionality_dep"
],
"c19_streaming_equals_batch": [
"ClassicalDedekindReals.sig_forall_dec",
"FunctionalExtensionality.functional_extensionality_dep"
],
"c200_batches": [],
"c200_complex_signals": [
"ClassicalDedekindReals.sig_not_dec",
"ClassicalDedekindReals.sig_forall_dec",
"FunctionalExtensionality.functional_extensionality_dep",
"Classical_Prop.classic"
],
"c200_real_is_complex": [
"ClassicalDedekindReals.sig_not_dec",
"ClassicalDedekindReals.sig_forall_dec",
"FunctionalExtensionality.functional_extensionality_dep",
"Classical_Prop.classic"
],
"c200_real_signals": [
"ClassicalDedekindReals.sig_not_dec",
"ClassicalDedekindReals.sig_forall_dec",
"FunctionalExtensionality.functional_extensionality_dep",
"Classical_Prop.classic"
],
"c201_every_bandwidth": [
"ClassicalDedekindReals.sig_not_dec",
"ClassicalDedekindReals.sig_forall_dec",
"FunctionalExtensionality.functional_extensionality_dep",
"Classical_Prop.classic"
],
"c201_fast_is_the_correlation_refuted": [
"ClassicalDedekindReals.sig_not_dec",
"ClassicalDedekindReals.sig_forall_dec",
"FunctionalExtensionality.functional_extensionality_dep",
"Classical_Prop.classic"
],
"c201_zonal_partial": [
"ClassicalDedekindReals.sig_not_dec",
"ClassicalDedekindReals.sig_forall_dec",
"FunctionalExtensionality.functional_extensionality_dep",
"Classical_Prop.classic"
],
"c202_attained": [
"ClassicalDedekindReals.sig_not_dec",
"ClassicalDedekindReals.sig_forall_dec",
"FunctionalExtensionality.functional_extensionality_dep",
"Classical_Prop.classic"
],
"c202_complex_bound": [
"ClassicalDedekindReals.sig_not_dec",
"ClassicalDedekindReals.sig_forall_dec",
"FunctionalExtensionality.functional_extensionality_dep",
"Classical_Prop.classic"
],
"c202_real_bound": [
"ClassicalDedekindReals.sig_not_dec",
"ClassicalDedekindReals.sig_forall_dec",
"FunctionalExtensionality.functional_extensionality_dep",
"Classical_Prop.classic"
],
"c203_both_hemispheres": [
"ClassicalDedekindReals.sig_not_dec",
"ClassicalDedekindReals.sig_forall_dec",
"FunctionalExtensionality.functional_extensionality_dep",
"Classical_Prop.classic"
],
"c203_one_hemisphere": [
"ClassicalDedekindReals.sig_not_dec",
"ClassicalDedekindReals.sig_forall_dec",
"FunctionalExtensionality.functional_extensionality_dep",
"Classical_Prop.classic"
],
"c204_single_bin": [
"ClassicalDedekindReals.sig_forall_dec",
"FunctionalExtensionality.functional_extensionality_dep"
],
"c204_slabs_compose": [
"ClassicalDedekindReals.sig_forall_dec"
],
"c204_wave_per_depth": [
"ClassicalDedekindReals.sig_forall_dec",
"FunctionalExtensionality.functional_extensionality_dep"
],
"c205_errors": [
"ClassicalDedekindReals.sig_forall_dec",
"FunctionalExtensionality.functional_extensionality_dep"
],
"c205_exact_for_cubics_on_uniform_grids": [
"ClassicalDedekindReals.sig_not_dec",
"ClassicalDedekindReals.sig_forall_dec",
"FunctionalExtensionality.functional_extensionality_dep",
"Classical_Prop.classic"
],
"c205_exact_for_quadratics": [
"ClassicalDedekindReals.sig_not_dec",
"ClassicalDedekindReals.sig_forall_dec",
"FunctionalExtensionality.functional_extensionality_dep",
"Classical_Prop.classic"
],
"c205_linear": [
"ClassicalDedekindReals.sig_forall_dec",
"FunctionalExtensionality.functional_extensionality_dep"
],
"c206_moderate_grids": [
"ClassicalDedekindReals.sig_forall_dec",
"FunctionalExtensionality.functional_extensionality_dep"
],
"c206_nonnegative_integral_refuted": [
"ClassicalDedekindReals.sig_not_dec",
"ClassicalDedekindReals.sig_forall_dec",
"FunctionalExtensionality.functional_extensionality_dep",
"Classical_Prop.classic"
],
"c207_lvd_real_factor": [
"ClassicalDedekindReals.sig_not_dec",
"ClassicalDedekindReals.sig_forall_dec",
"FunctionalExtensionality.functional_extensionality_dep",
"Classical_Prop.classic"
],
"c208_wk_real_factor": [
"ClassicalDedekindReals.sig_not_dec",
"ClassicalDedekindReals.sig_forall_dec",
"FunctionalExtensionality.functional_extensionality_dep",
"Classical_Prop.classic"
],
"c209_wk_monotone_refuted": [
"ClassicalDedekindReals.sig_not_dec",
"ClassicalDedekindReals.sig_forall_dec",
"FunctionalExtensionality.functional_extensionality_dep",
"Classical_Prop.classic"
],
"c20_oja_counter": [
"ClassicalDedekindReals.sig_forall_dec"
],
"c20_oja_plus_counters": [
"ClassicalDedekindReals.sig_forall_dec"
],
"c210_nonpositive_rejected_refuted": [
"ClassicalDedekindReals.sig_not_dec",
"ClassicalDedekindReals.sig_forall_dec",
"FunctionalExtensionality.functional_extensionality_dep",
"Classical_Prop.classic"
],
"c210_too_large": [
"ClassicalDedekindReals.sig_not_dec",
"ClassicalDedekindReals.sig_forall_dec",
"FunctionalExtensionality.functional_extensionality_dep",
"Classical_Prop.classic"
],
"c210_too_large_lvd": [
"ClassicalDedekindReals.sig_not_dec",
"ClassicalDedekindReals.sig_forall_dec",
"FunctionalExtensionality.functional_extensionality_dep",
"Classical_Prop.classic"
],
"c211_scalar_sigma_refuted": [
"ClassicalDedekindReals.sig_not_dec",
"ClassicalDedekindReals.sig_forall_dec",
"FunctionalExtensionality.functional_extensionality_dep",
"Classical_Prop.classic"
],
"c212_lvd_voltages_refuted": [
"ClassicalDedekindReals.sig_not_dec",
"ClassicalDedekindReals.sig_forall_dec",
"FunctionalExtensionality.functional_extensionality_dep",
"Classical_Prop.classic"
],
"c213_clamp_only_negative": [
"ClassicalDedekindReals.sig_not_dec",
"ClassicalDedekindReals.sig_forall_dec",
"FunctionalExtensionality.functional_extensionality_dep",
"Classical_Prop.classic"
],
"c213_finite_and_signs": [
"ClassicalDedekindReals.sig_not_dec",
"ClassicalDedekindReals.sig_forall_dec",
"FunctionalExtensionality.functional_extensionality_dep",
"Classical_Prop.classic"
],
"c214_lvd_absorption_nonnegative_refuted": [
"ClassicalDedekindReals.sig_not_dec",
"ClassicalDedekindReals.sig_forall_dec",
"FunctionalExtensionality.functional_extensionality_dep",
"Classical_Prop.classic"
],
"c215_exp1_accurate": [
"ClassicalDedekindReals.sig_not_dec",
"ClassicalDedekindReals.sig_forall_dec",
"FunctionalExtensionality.functional_extensionality_dep",
"Classical_Prop.classic"
],
"c215_exp1_edges": [
"ClassicalDedekindReals.sig_not_dec",
"ClassicalDedekindReals.sig_forall_dec",
"FunctionalExtensionality.functional_extensionality_dep",
"Classical_Prop.classic"
],
"c216_differences": [
"ClassicalDedekindReals.sig_not_dec",
"ClassicalDedekindReals.sig_forall_dec",
"FunctionalExtensionality.functional_extensionality_dep",
"Classical_Prop.classic"
],
"c216_expi_accurate": [
"ClassicalDedekindReals.sig_not_dec",
"ClassicalDedekindReals.sig_forall_dec",
"FunctionalExtensionality.functional_extensionality_dep",
"Classical_Prop.classic"
],
"c216_expi_edges": [
"ClassicalDedekindReals.sig_not_dec",
"ClassicalDedekindReals.sig_forall_dec",
"FunctionalExtensionality.functional_extensionality_dep",
"Classical_Prop.classic"
],
"c217_single_precision_refuted": [
"ClassicalDedekindReals.sig_not_dec",
"ClassicalDedekindReals.sig_forall_dec",
"FunctionalExtensionality.functional_extensionality_dep",
"Classical_Prop.classic"
],
"c218_rih2_beyond_200": [
"ClassicalDedekindReals.sig_not_dec",
"ClassicalDedekindReals.sig_forall_dec",
"FunctionalExtensionality.functional_extensionality_dep",
"Classical_Prop.classic"
],
"c218_rih2_refuted": [
"ClassicalDedekindReals.sig_not_dec",
"ClassicalDedekindReals.sig_forall_dec",
"FunctionalExtensionality.functional_extensionality_dep",
"Classical_Prop.classic"
],
"c219_all_pairs": [
"ClassicalDedekindReals.sig_not_dec",
"ClassicalDedekindReals.sig_forall_dec",
"FunctionalExtensionality.functional_extensionality_dep",
"Classical_Prop.classic"
],
"c219_grows_with_displacement": [
"ClassicalDedekindReals.sig_not_dec",
"ClassicalDedekindReals.sig_forall_dec",
"FunctionalExtensionality.functional_extensionality_dep",
"Classical_Prop.classic"
],
"c219_phonon_forward": [
"ClassicalDedekindReals.sig_not_dec",
"ClassicalDedekindReals.sig_forall_dec",
"FunctionalExtensionality.functional_extensionality_dep",
"Classical_Prop.classic"
],
"c219_total_positive": [
"ClassicalDedekindReals.sig_not_dec",
"ClassicalDedekindReals.sig_forall_dec",
"FunctionalExtensionality.functional_extensionality_dep",
"Classical_Prop.classic"
],
"c21_product": [],
"c21_small_prime_factors": [],
"c21_trial_division": [],
"c220_zero_sigma_refuted": [
"ClassicalDedekindReals.sig_not_dec",
"ClassicalDedekindReals.sig_forall_dec",
"FunctionalExtensionality.functional_extensionality_dep",
"Classical_Prop.classic"
],
"c221_three_implementations_agree": [
"ClassicalDedekindReals.sig_not_dec",
"ClassicalDedekindReals.sig_forall_dec",
"FunctionalExtensionality.functional_extensionality_dep",
"Classical_Prop.classic"
],
"c221_wavelength": [
"ClassicalDedekindReals.sig_not_dec",
"ClassicalDedekindReals.sig_forall_dec",
"FunctionalExtensionality.functional_extensionality_dep",
"Classical_Prop.classic"
],
"c222_structure_factor_wk": [
"ClassicalDedekindReals.sig_not_dec",
"ClassicalDedekindReals.sig_forall_dec",
"FunctionalExtensionality.functional_extensionality_dep",
"Classical_Prop.classic"
],
"c223_structure_factor_hybrid_refuted": [
"ClassicalDedekindReals.sig_not_dec",
"ClassicalDedekindReals.sig_forall_dec",
"FunctionalExtensionality.functional_extensionality_dep",
"Classical_Prop.classic"
],
"c224_entrywise": [
"ClassicalDedekindReals.sig_not_dec",
"ClassicalDedekindReals.sig_forall_dec",
"FunctionalExtensionality.functional_extensionality_dep",
"Classical_Prop.classic"
],
"c224_lvd_entrywise": [
"ClassicalDedekindReals.sig_not_dec",
"ClassicalDedekindReals.sig_forall_dec",
"FunctionalExtensionality.functional_extensionality_dep",
"Classical_Prop.classic"
],
"c224_names": [
"ClassicalDedekindReals.sig_not_dec",
"ClassicalDedekindReals.sig_forall_dec",
"FunctionalExtensionality.functional_extensionality_dep",
"Classical_Prop.classic"
],
"c224_odd_axes": [
"ClassicalDedekindReals.sig_not_dec",
"ClassicalDedekindReals.sig_forall_dec",
"FunctionalExtensionality.functional_extensionality_dep",
"Classical_Prop.classic"
],
"c225_unknown_names_refuted": [
"ClassicalDedekindReals.sig_not_dec",
"ClassicalDedekindReals.sig_forall_dec",
"FunctionalExtensionality.functional_extensionality_dep",
"Classical_Prop.classic"
],
"c226_half_powers": [
"ClassicalDedekindReals.sig_not_dec",
"ClassicalDedekindReals.sig_forall_dec",
"FunctionalExtensionality.functional_extensionality_dep",
"Classical_Prop.classic"
],
"c226_norm_idempotent": [
"ClassicalDedekindReals.sig_not_dec",
"ClassicalDedekindReals.sig_forall_dec",
"FunctionalExtensionality.functional_extensionality_dep",
"Classical_Prop.classic"
],
"c226_norm_keeps_value": [
"ClassicalDedekindReals.sig_not_dec",
"ClassicalDedekindReals.sig_forall_dec",
"FunctionalExtensionality.functional_extensionality_dep",
"Classical_Prop.classic"
],
"c226_norm_normalises": [
"ClassicalDedekindReals.sig_not_dec",
"ClassicalDedekindReals.sig_forall_dec",
"FunctionalExtensionality.functional_extensionality_dep",
"Classical_Prop.classic"
],
"c226_normal_form_unique": [
"ClassicalDedekindReals.sig_not_dec",
"ClassicalDedekindReals.sig_forall_dec",
"FunctionalExtensionality.functional_extensionality_dep",
"Classical_Prop.classic"
],
"c226_table_lengths": [
"ClassicalDedekindReals.sig_not_dec",
"ClassicalDedekindReals.sig_forall_dec",
"FunctionalExtensionality.functional_extensionality_dep",
"Classical_Prop.classic"
],
"c226_trig_powers": [
"ClassicalDedekindReals.sig_not_dec",
"ClassicalDedekindReals.sig_forall_dec",
"FunctionalExtensionality.functional_extensionality_dep",
"Classical_Prop.classic"
],
"c227_float64_neighbours": [
"ClassicalDedekindReals.sig_forall_dec",
"FunctionalExtensionality.functional_extensionality_dep"
],
"c227_same_exponent": [],
"c227_small_absolute_error": [
"ClassicalDedekindReals.sig_not_dec",
"ClassicalDedekindReals.sig_forall_dec",
"FunctionalExtensionality.functional_extensionality_dep",
"Classical_Prop.classic"
],
"c228_default_type_zero": [
"ClassicalDedekindReals.sig_forall_dec",
"FunctionalExtensionality.functional_extensionality_dep"
],
"c228_float64_exponents_merge": [
"ClassicalDedekindReals.sig_forall_dec",
"FunctionalExtensionality.functional_extensionality_dep"
],
"c228_float64_refuted": [
"ClassicalDedekindReals.sig_not_dec",
"ClassicalDedekindReals.sig_forall_dec",
"FunctionalExtensionality.functional_extensionality_dep",
"Classical_Prop.classic"
],
"c228_represented_value_refuted": [
"ClassicalDedekindReals.sig_not_dec",
"ClassicalDedekindReals.sig_forall_dec",
"FunctionalExtensionality.functional_extensionality_dep",
"Classical_Prop.classic"
],
"c229_far_exponents": [
"ClassicalDedekindReals.sig_not_dec",
"ClassicalDedekindReals.sig_forall_dec",
"FunctionalExtensionality.functional_extensionality_dep",
"Classical_Prop.classic"
],
"c229_neighbours_float64": [
"ClassicalDedekindReals.sig_not_dec",
"ClassicalDedekindReals.sig_forall_dec",
"FunctionalExtensionality.functional_extensionality_dep",
"Classical_Prop.classic"
],
"c229_same_exponent": [
"ClassicalDedekindReals.sig_not_dec",
"ClassicalDedekindReals.sig_forall_dec",
"FunctionalExtensionality.functional_extensionality_dep",
"Classical_Prop.classic"
],
"c22_product": [],
"c22_small_total": [],
"c230_default_type_refuted": [
"ClassicalDedekindReals.sig_not_dec",
"ClassicalDedekindReals.sig_forall_dec",
"FunctionalExtensionality.functional_extensionality_dep",
"Classical_Prop.classic"
],
"c230_zero_swallows_refuted": [
"ClassicalDedekindReals.sig_not_dec",
"ClassicalDedekindReals.sig_forall_dec",
"FunctionalExtensionality.functional_extensionality_dep",
"Classical_Prop.classic"
],
"c231_orders_up_to_32": [
"ClassicalDedekindReals.sig_not_dec",
"ClassicalDedekindReals.sig_forall_dec",
"FunctionalExtensionality.functional_extensionality_dep",
"Classical_Prop.classic"
],
"c231_table_accuracy": [
"ClassicalDedekindReals.sig_not_dec",
"ClassicalDedekindReals.sig_forall_dec",
"FunctionalExtensionality.functional_extensionality_dep",
"Classical_Prop.classic"
],
"c232_default_type_loses_recursion_term": [
"ClassicalDedekindReals.sig_not_dec",
"ClassicalDedekindReals.sig_forall_dec",
"FunctionalExtensionality.functional_extensionality_dep",
"Classical_Prop.classic"
],
"c232_far_exponent_refuted": [
"ClassicalDedekindReals.sig_not_dec",
"ClassicalDedekindReals.sig_forall_dec",
"FunctionalExtensionality.functional_extensionality_dep",
"Classical_Prop.classic"
],
"c232_relative_accuracy_refuted": [
"ClassicalDedekindReals.sig_not_dec",
"ClassicalDedekindReals.sig_forall_dec",
"FunctionalExtensionality.functional_extensionality_dep",
"Classical_Prop.classic"
],
"c233_end_points_refuted": [
"ClassicalDedekindReals.sig_not_dec",
"ClassicalDedekindReals.sig_forall_dec",
"FunctionalExtensionality.functional_extensionality_dep",
"Classical_Prop.classic"
],
"c233_pi_refuted": [
"ClassicalDedekindReals.sig_not_dec",
"ClassicalDedekindReals.sig_forall_dec",
"FunctionalExtensionality.functional_extensionality_dep",
"Classical_Prop.classic"
],
"c233_zero_gives_nan": [
"ClassicalDedekindReals.sig_not_dec",
"ClassicalDedekindReals.sig_forall_dec",
"FunctionalExtensionality.functional_extensionality_dep",
"Classical_Prop.classic"
],
"c234_lookup": [
"ClassicalDedekindReals.sig_not_dec",
"ClassicalDedekindReals.sig_forall_dec",
"FunctionalExtensionality.functional_extensionality_dep"
],
"c235_negative_orders_refuted": [
"ClassicalDedekindReals.sig_not_dec",
"ClassicalDedekindReals.sig_forall_dec",
"FunctionalExtensionality.functional_extensionality_dep",
"Classical_Prop.classic"
],
"c235_reads_another_entry": [
"ClassicalDedekindReals.sig_forall_dec",
"FunctionalExtensionality.functional_extensionality_dep"
],
"c236_cube_symmetric": [
"ClassicalDedekindReals.sig_not_dec",
"ClassicalDedekindReals.sig_forall_dec",
"FunctionalExtensionality.functional_extensionality_dep"
],
"c236_every_point_is_sorted_somehow": [
"ClassicalDedekindReals.sig_forall_dec",
"FunctionalExtensionality.functional_extensionality_dep"
],
"c236_mutually_inverse": [
"ClassicalDedekindReals.sig_not_dec",
"ClassicalDedekindReals.sig_forall_dec",
"FunctionalExtensionality.functional_extensionality_dep"
],
"c236_other_groups_rejected": [
"ClassicalDedekindReals.sig_not_dec",
"ClassicalDedekindReals.sig_forall_dec",
"FunctionalExtensionality.functional_extensionality_dep"
],
"c236_radial": [
"ClassicalDedekindReals.sig_not_dec",
"ClassicalDedekindReals.sig_forall_dec",
"FunctionalExtensionality.functional_extensionality_dep"
],
"c237_cube_into_zone_refuted": [
"ClassicalDedekindReals.sig_not_dec",
"ClassicalDedekindReals.sig_forall_dec",
"FunctionalExtensionality.functional_extensionality_dep"
],
"c237_directions_exchanged": [
"ClassicalDedekindReals.sig_not_dec",
"ClassicalDedekindReals.sig_forall_dec",
"FunctionalExtensionality.functional_extensionality_dep"
],
"c237_zone_is_the_tested_one": [
"ClassicalDedekindReals.sig_not_dec",
"ClassicalDedekindReals.sig_forall_dec",
"FunctionalExtensionality.functional_extensionality_dep"
],
"c238_hsl_color": [
"ClassicalDedekindReals.sig_not_dec",
"ClassicalDedekindReals.sig_forall_dec",
"FunctionalExtensionality.functional_extensionality_dep",
"Classical_Prop.classic"
],
"c239_color_is_symmetric": [
"ClassicalDedekindReals.sig_not_dec",
"ClassicalDedekindReals.sig_forall_dec",
"FunctionalExtensionality.functional_extensionality_dep",
"Classical_Prop.classic"
],
"c23_egcd": [],
"c23_gcd": [],
"c23_gcd_up_to_sign": [],
"c23_modular_inverse": [],
"c23_sieve": [],
"c23_sieve_increasing": [],
"c240_equivalent_orientations_refuted": [
"ClassicalDedekindReals.sig_not_dec",
"ClassicalDedekindReals.sig_forall_dec",
"FunctionalExtensionality.functional_extensionality_dep",
"Classical_Prop.classic"
],
"c241_dark_hsl_refuted": [
"ClassicalDedekindReals.sig_not_dec",
"ClassicalDedekindReals.sig_forall_dec",
"FunctionalExtensionality.functional_extensionality_dep",
"Classical_Prop.classic"
],
"c242_bytes_determined": [
"ClassicalDedekindReals.sig_not_dec",
"ClassicalDedekindReals.sig_forall_dec",
"FunctionalExtensionality.functional_extensionality_dep",
"Classical_Prop.classic"
],
"c243_bytes_determined_refuted": [
"ClassicalDedekindReals.sig_not_dec",
"ClassicalDedekindReals.sig_forall_dec",
"FunctionalExtensionality.functional_extensionality_dep",
"Classical_Prop.classic"
],
"c244_ax2ho_roundtrip": [
"ClassicalDedekindReals.sig_not_dec",
"ClassicalDedekindReals.sig_forall_dec",
"FunctionalExtensionality.functional_extensionality_dep",
"Classical_Prop.classic"
],
"c244_ho2ax_recovers_rotation": [
"ClassicalDedekindReals.sig_not_dec",
"ClassicalDedekindReals.sig_forall_dec",
"FunctionalExtensionality.functional_extensionality_dep",
"Classical_Prop.classic"
],
"c244_slow_mode": [
"ClassicalDedekindReals.sig_not_dec",
"ClassicalDedekindReals.sig_forall_dec",
"FunctionalExtensionality.functional_extensionality_dep",
"Classical_Prop.classic"
],
"c245_emsoft": [
"ClassicalDedekindReals.sig_not_dec",
"ClassicalDedekindReals.sig_forall_dec",
"FunctionalExtensionality.functional_extensionality_dep",
"Classical_Prop.classic"
],
"c245_error_iff_unknown": [
"ClassicalDedekindReals.sig_not_dec",
"ClassicalDedekindReals.sig_forall_dec",
"FunctionalExtensionality.functional_extensionality_dep",
"Classical_Prop.classic"
],
"c245_kikuchipy": [
"ClassicalDedekindReals.sig_not_dec",
"ClassicalDedekindReals.sig_forall_dec",
"FunctionalExtensionality.functional_extensionality_dep",
"Classical_Prop.classic"
],
"c246_into_cubochoric": [
"ClassicalDedekindReals.sig_not_dec",
"ClassicalDedekindReals.sig_forall_dec",
"FunctionalExtensionality.functional_extensionality_dep",
"Classical_Prop.classic"
],
"c246_into_homochoric": [
"ClassicalDedekindReals.sig_not_dec",
"ClassicalDedekindReals.sig_forall_dec",
"FunctionalExtensionality.functional_extensionality_dep",
"Classical_Prop.classic"
],
"c247_out_of_cubochoric": [
"ClassicalDedekindReals.sig_not_dec",
"ClassicalDedekindReals.sig_forall_dec",
"FunctionalExtensionality.functional_extensionality_dep",
"Classical_Prop.classic"
],
"c247_out_of_homochoric": [
"ClassicalDedekindReals.sig_not_dec",
"ClassicalDedekindReals.sig_forall_dec",
"FunctionalExtensionality.functional_extensionality_dep",
"Classical_Prop.classic"
],
"c247_quaternion_roundtrips": [
"ClassicalDedekindReals.sig_not_dec",
"ClassicalDedekindReals.sig_forall_dec",
"FunctionalExtensionality.functional_extensionality_dep",
"Classical_Prop.classic"
],
"c248_newton_angle": [
"ClassicalDedekindReals.sig_not_dec",
"ClassicalDedekindReals.sig_forall_dec",
"FunctionalExtensionality.functional_extensionality_dep",
"Classical_Prop.classic"
],
"c249_roundtrip_refuted": [
"ClassicalDedekindReals.sig_not_dec",
"ClassicalDedekindReals.sig_forall_dec",
"FunctionalExtensionality.functional_extensionality_dep",
"Classical_Prop.classic"
],
"c249_small_rotations_lost": [
"ClassicalDedekindReals.sig_not_dec",
"ClassicalDedekindReals.sig_forall_dec",
"FunctionalExtensionality.functional_extensionality_dep",
"Classical_Prop.classic"
],
"c249_small_rotations_lost_reference": [
"ClassicalDedekindReals.sig_not_dec",
"ClassicalDedekindReals.sig_forall_dec",
"FunctionalExtensionality.functional_extensionality_dep",
"Classical_Prop.classic"
],
"c24_bar_width": [],
"c24_early_stop": [],
"c24_ends_full": [],
"c24_transparent": [],
"c250_accumulation": [
"ClassicalDedekindReals.sig_forall_dec",
"FunctionalExtensionality.functional_extensionality_dep"
],
"c250_terminates": [
"ClassicalDedekindReals.sig_forall_dec",
"FunctionalExtensionality.functional_extensionality_dep"
],
"c251_always_returns_refuted": [
"ClassicalDedekindReals.sig_forall_dec",
"FunctionalExtensionality.functional_extensionality_dep"
],
"c251_no_electrons_never_returns": [
"ClassicalDedekindReals.sig_forall_dec",
"FunctionalExtensionality.functional_extensionality_dep"
],
"c251_zero_steps_count_nothing": [],
"c252_energy_rows": [
"ClassicalDedekindReals.sig_not_dec",
"ClassicalDedekindReals.sig_forall_dec",
"FunctionalExtensionality.functional_extensionality_dep",
"Classical_Prop.classic"
],
"c253_beam_energy_refuted": [
"ClassicalDedekindReals.sig_forall_dec",
"FunctionalExtensionality.functional_extensionality_dep"
],
"c254_override": [
"ClassicalDedekindReals.sig_forall_dec",
"FunctionalExtensionality.functional_extensionality_dep"
],
"c254_step_search": [
"ClassicalDedekindReals.sig_forall_dec",
"FunctionalExtensionality.functional_extensionality_dep"
],
"c255_steps_suffice_refuted": [
"ClassicalDedekindReals.sig_forall_dec",
"FunctionalExtensionality.functional_extensionality_dep"
],
"c256_normalised": [
"ClassicalDedekindReals.sig_not_dec",
"ClassicalDedekindReals.sig_forall_dec",
"FunctionalExtensionality.functional_extensionality_dep"
],
"c256_rejected": [
"ClassicalDedekindReals.sig_not_dec",
"ClassicalDedekindReals.sig_forall_dec",
"FunctionalExtensionality.functional_extensionality_dep"
],
"c256_resample": [
"ClassicalDedekindReals.sig_not_dec",
"ClassicalDedekindReals.sig_forall_dec",
"FunctionalExtensionality.functional_extensionality_dep",
"Classical_Prop.classic"
],
"c257_counts_preserved_refuted": [
"ClassicalDedekindReals.sig_not_dec",
"ClassicalDedekindReals.sig_forall_dec",
"FunctionalExtensionality.functional_extensionality_dep",
"Classical_Prop.classic"
],
"c258_out_of_range_refuted": [
"ClassicalDedekindReals.sig_not_dec",
"ClassicalDedekindReals.sig_forall_dec",
"FunctionalExtensionality.functional_extensionality_dep",
"Classical_Prop.classic"
],
"c259_linear_between_neighbours_refuted": [
"ClassicalDedekindReals.sig_not_dec",
"ClassicalDedekindReals.sig_forall_dec",
"FunctionalExtensionality.functional_extensionality_dep",
"Classical_Prop.classic"
],
"c25_qu2om_even": [
"ClassicalDedekindReals.sig_forall_dec",
"FunctionalExtensionality.functional_extensionality_dep"
],
"c25_qu2om_homomorphism": [
"ClassicalDedekindReals.sig_forall_dec",
"FunctionalExtensionality.functional_extensionality_dep"
],
"c25_qu2om_is_axis_angle_rotation": [
"ClassicalDedekindReals.sig_not_dec",
"ClassicalDedekindReals.sig_forall_dec",
"FunctionalExtensionality.functional_extensionality_dep"
],
"c25_qu2om_only_sign_lost": [
"ClassicalDedekindReals.sig_forall_dec",
"FunctionalExtensionality.functional_extensionality_dep"
],
"c25_qu2om_onto_rotations": [
"ClassicalDedekindReals.sig_not_dec",
"ClassicalDedekindReals.sig_forall_dec",
"FunctionalExtensionality.functional_extensionality_dep"
],
"c25_qu2om_rotation": [
"ClassicalDedekindReals.sig_forall_dec",
"FunctionalExtensionality.functional_extensionality_dep"
],
"c260_edge_count_refuted": [
"ClassicalDedekindReals.sig_not_dec",
"ClassicalDedekindReals.sig_forall_dec",
"FunctionalExtensionality.functional_extensionality_dep"
],
"c260_exact_steps": [
"ClassicalDedekindReals.sig_forall_dec",
"FunctionalExtensionality.functional_extensionality_dep"
],
"c261_mirrored_trial": [
"ClassicalDedekindReals.sig_not_dec",
"ClassicalDedekindReals.sig_forall_dec",
"FunctionalExtensionality.functional_extensionality_dep",
"Classical_Prop.classic"
],
"c261_recorded_cell": [
"ClassicalDedekindReals.sig_not_dec",
"ClassicalDedekindReals.sig_forall_dec",
"FunctionalExtensionality.functional_extensionality_dep",
"Classical_Prop.classic"
],
"c261_same_exit_mirrored": [
"ClassicalDedekindReals.sig_not_dec",
"ClassicalDedekindReals.sig_forall_dec",
"FunctionalExtensionality.functional_extensionality_dep",
"Classical_Prop.classic"
],
"c262_energy_rows_refuted": [
"ClassicalDedekindReals.sig_forall_dec",
"FunctionalExtensionality.functional_extensionality_dep"
],
"c263_clean_succeeds": [
"ClassicalDedekindReals.sig_not_dec",
"ClassicalDedekindReals.sig_forall_dec",
"FunctionalExtensionality.functional_extensionality_dep"
],
"c264_background_has_no_effect": [
"ClassicalDedekindReals.sig_not_dec",
"ClassicalDedekindReals.sig_forall_dec",
"FunctionalExtensionality.functional_extensionality_dep"
],
"c265_single_pattern_erased_refuted": [
"ClassicalDedekindReals.sig_not_dec",
"ClassicalDedekindReals.sig_forall_dec",
"FunctionalExtensionality.functional_extensionality_dep"
],
"c266_brightness_and_contrast": [
"ClassicalDedekindReals.sig_not_dec",
"ClassicalDedekindReals.sig_forall_dec",
"FunctionalExtensionality.functional_extensionality_dep"
],
"c266_constant_stays_constant": [
"ClassicalDedekindReals.sig_not_dec",
"ClassicalDedekindReals.sig_forall_dec",
"FunctionalExtensionality.functional_extensionality_dep"
],
"c266_mirror": [
"ClassicalDedekindReals.sig_not_dec",
"ClassicalDedekindReals.sig_forall_dec",
"FunctionalExtensionality.functional_extensionality_dep"
],
"c266_overshoot_bounded": [
"ClassicalDedekindReals.sig_not_dec",
"ClassicalDedekindReals.sig_forall_dec",
"FunctionalExtensionality.functional_extensionality_dep"
],
"c266_size": [
"ClassicalDedekindReals.sig_not_dec",
"ClassicalDedekindReals.sig_forall_dec",
"FunctionalExtensionality.functional_extensionality_dep"
],
"c267_range_kept_refuted": [
"ClassicalDedekindReals.sig_not_dec",
"ClassicalDedekindReals.sig_forall_dec",
"FunctionalExtensionality.functional_extensionality_dep",
"Classical_Prop.classic"
],
"c268_exact_multiples_refuted": [
"ClassicalDedekindReals.sig_forall_dec",
"FunctionalExtensionality.functional_extensionality_dep"
],
"c269_average_of_stored_neighbours": [
"ClassicalDedekindReals.sig_not_dec",
"ClassicalDedekindReals.sig_forall_dec",
"FunctionalExtensionality.functional_extensionality_dep",
"Classical_Prop.classic"
],
"c269_scans_only": [
"ClassicalDedekindReals.sig_not_dec",
"ClassicalDedekindReals.sig_forall_dec",
"FunctionalExtensionality.functional_extensionality_dep"
],
"c26_om2qu_always_unit": [
"ClassicalDedekindReals.sig_not_dec",
"ClassicalDedekindReals.sig_forall_dec",
"FunctionalExtensionality.functional_extensionality_dep"
],
"c26_om2qu_inverts_qu2om": [
"ClassicalDedekindReals.sig_not_dec",
"ClassicalDedekindReals.sig_forall_dec",
"FunctionalExtensionality.functional_extensionality_dep"
],
"c26_qu2om_inverts_om2qu": [
"ClassicalDedekindReals.sig_not_dec",
"ClassicalDedekindReals.sig_forall_dec",
"FunctionalExtensionality.functional_extensionality_dep"
],
"c270_clear_winners_are_found": [
"ClassicalDedekindReals.sig_forall_dec",
"FunctionalExtensionality.functional_extensionality_dep"
],
"c270_quantised_search_near_exact": [
"ClassicalDedekindReals.sig_forall_dec",
"FunctionalExtensionality.functional_extensionality_dep"
],
"c271_pixel_of_grain": [
"ClassicalDedekindReals.sig_not_dec",
"ClassicalDedekindReals.sig_forall_dec",
"FunctionalExtensionality.functional_extensionality_dep",
"Classical_Prop.classic"
],
"c271_rotation_part_is_orientation": [
"ClassicalDedekindReals.sig_not_dec",
"ClassicalDedekindReals.sig_forall_dec",
"FunctionalExtensionality.functional_extensionality_dep"
],
"c271_values_in_range": [
"ClassicalDedekindReals.sig_not_dec",
"ClassicalDedekindReals.sig_forall_dec",
"FunctionalExtensionality.functional_extensionality_dep",
"Classical_Prop.classic"
],
"c271_volume_change_invisible": [
"ClassicalDedekindReals.sig_not_dec",
"ClassicalDedekindReals.sig_forall_dec",
"FunctionalExtensionality.functional_extensionality_dep"
],
"c272_one_batch_dimension": [],
"c272_other_shapes_refuted": [],
"c273_chain_drift": [
"ClassicalDedekindReals.sig_not_dec",
"ClassicalDedekindReals.sig_forall_dec",
"FunctionalExtensionality.functional_extensionality_dep"
],
"c273_million_products": [
"ClassicalDedekindReals.sig_not_dec",
"ClassicalDedekindReals.sig_forall_dec",
"FunctionalExtensionality.functional_extensionality_dep"
],
"c273_product_error": [
"ClassicalDedekindReals.sig_not_dec",
"ClassicalDedekindReals.sig_forall_dec",
"FunctionalExtensionality.functional_extensionality_dep"
],
"c273_product_in_doubles": [
"ClassicalDedekindReals.sig_not_dec",
"ClassicalDedekindReals.sig_forall_dec",
"FunctionalExtensionality.functional_extensionality_dep",
"Classical_Prop.classic"
],
"c273_standardised_product": [
"ClassicalDedekindReals.sig_not_dec",
"ClassicalDedekindReals.sig_forall_dec",
"FunctionalExtensionality.functional_extensionality_dep"
],
"c274_rotation_error": [
"ClassicalDedekindReals.sig_not_dec",
"ClassicalDedekindReals.sig_forall_dec",
"FunctionalExtensionality.functional_extensionality_dep"
],
"c274_rotation_in_doubles": [
"ClassicalDedekindReals.sig_not_dec",
"ClassicalDedekindReals.sig_forall_dec",
"FunctionalExtensionality.functional_extensionality_dep",
"Classical_Prop.classic"
],
"c275_short_vectors_refuted": [
"ClassicalDedekindReals.sig_forall_dec",
"FunctionalExtensionality.functional_extensionality_dep"
],
"c276_float_search_near_exact": [
"ClassicalDedekindReals.sig_forall_dec",
"FunctionalExtensionality.functional_extensionality_dep"
],
"c276_rounded_inner_product": [
"ClassicalDedekindReals.sig_forall_dec",
"FunctionalExtensionality.functional_extensionality_dep"
],
"c277_angle_is_a_number": [
"ClassicalDedekindReals.sig_not_dec",
"ClassicalDedekindReals.sig_forall_dec",
"FunctionalExtensionality.functional_extensionality_dep",
"Classical_Prop.classic"
],
"c277_disorientation_cosine": [
"ClassicalDedekindReals.sig_not_dec",
"ClassicalDedekindReals.sig_forall_dec",
"FunctionalExtensionality.functional_extensionality_dep",
"Classical_Prop.classic"
],
"c278_self_disorientation_refuted": [
"ClassicalDedekindReals.sig_not_dec",
"ClassicalDedekindReals.sig_forall_dec",
"FunctionalExtensionality.functional_extensionality_dep",
"Classical_Prop.classic"
],
"c279_beam_direction": [
"ClassicalDedekindReals.sig_not_dec",
"ClassicalDedekindReals.sig_forall_dec",
"FunctionalExtensionality.functional_extensionality_dep"
],
"c279_incidence_angle": [
"ClassicalDedekindReals.sig_not_dec",
"ClassicalDedekindReals.sig_forall_dec",
"FunctionalExtensionality.functional_extensionality_dep",
"Classical_Prop.classic"
],
"c279_untwisted_beam": [
"ClassicalDedekindReals.sig_not_dec",
"ClassicalDedekindReals.sig_forall_dec",
"FunctionalExtensionality.functional_extensionality_dep"
],
"c27_ax2om_agrees_with_quaternion": [
"ClassicalDedekindReals.sig_not_dec",
"ClassicalDedekindReals.sig_forall_dec",
"FunctionalExtensionality.functional_extensionality_dep"
],
"c27_ax2om_is_rotation": [
"ClassicalDedekindReals.sig_not_dec",
"ClassicalDedekindReals.sig_forall_dec",
"FunctionalExtensionality.functional_extensionality_dep"
],
"c27_ax2om_small_angle_error": [
"ClassicalDedekindReals.sig_not_dec",
"ClassicalDedekindReals.sig_forall_dec",
"FunctionalExtensionality.functional_extensionality_dep",
"Classical_Prop.classic"
],
"c27_ax2qu_is_axis_angle": [
"ClassicalDedekindReals.sig_not_dec",
"ClassicalDedekindReals.sig_forall_dec",
"FunctionalExtensionality.functional_extensionality_dep"
],
"c27_ax2qu_roundtrip": [
"ClassicalDedekindReals.sig_not_dec",
"ClassicalDedekindReals.sig_forall_dec",
"FunctionalExtensionality.functional_extensionality_dep",
"Classical_Prop.classic"
],
"c27_om2ax_recovers": [
"ClassicalDedekindReals.sig_not_dec",
"ClassicalDedekindReals.sig_forall_dec",
"FunctionalExtensionality.functional_extensionality_dep",
"Classical_Prop.classic"
],
"c27_qu2ax_roundtrip": [
"ClassicalDedekindReals.sig_not_dec",
"ClassicalDedekindReals.sig_forall_dec",
"FunctionalExtensionality.functional_extensionality_dep",
"Classical_Prop.classic"
],
"c280_depth_scales": [
"ClassicalDedekindReals.sig_not_dec",
"ClassicalDedekindReals.sig_forall_dec",
"FunctionalExtensionality.functional_extensionality_dep",
"Classical_Prop.classic"
],
"c280_same_cells_at_scaled_depth_bins": [
"ClassicalDedekindReals.sig_not_dec",
"ClassicalDedekindReals.sig_forall_dec",
"FunctionalExtensionality.functional_extensionality_dep",
"Classical_Prop.classic"
],
"c280_same_energy_and_direction": [
"ClassicalDedekindReals.sig_not_dec",
"ClassicalDedekindReals.sig_forall_dec",
"FunctionalExtensionality.functional_extensionality_dep",
"Classical_Prop.classic"
],
"c280_two_simulators": [
"ClassicalDedekindReals.sig_not_dec",
"ClassicalDedekindReals.sig_forall_dec",
"FunctionalExtensionality.functional_extensionality_dep",
"Classical_Prop.classic"
],
"c281_second_structure_matrix": [
"ClassicalDedekindReals.sig_not_dec",
"ClassicalDedekindReals.sig_forall_dec",
"FunctionalExtensionality.functional_extensionality_dep"
],
"c281_when_defined": [
"ClassicalDedekindReals.sig_not_dec",
"ClassicalDedekindReals.sig_forall_dec",
"FunctionalExtensionality.functional_extensionality_dep"
],
"c282_half_angle_untransposed_is_right": [
"ClassicalDedekindReals.sig_not_dec",
"ClassicalDedekindReals.sig_forall_dec",
"FunctionalExtensionality.functional_extensionality_dep"
],
"c282_no_matrix_for_rhombohedral_groups_refuted": [
"ClassicalDedekindReals.sig_not_dec",
"ClassicalDedekindReals.sig_forall_dec",
"FunctionalExtensionality.functional_extensionality_dep"
],
"c282_rhombohedral_axes_refuted": [
"ClassicalDedekindReals.sig_not_dec",
"ClassicalDedekindReals.sig_forall_dec",
"FunctionalExtensionality.functional_extensionality_dep"
],
"c282_tetragonal_cells_tilted_refuted": [
"ClassicalDedekindReals.sig_not_dec",
"ClassicalDedekindReals.sig_forall_dec",
"FunctionalExtensionality.functional_extensionality_dep",
"Classical_Prop.classic"
],
"c283_normalise_error": [
"ClassicalDedekindReals.sig_not_dec",
"ClassicalDedekindReals.sig_forall_dec",
"FunctionalExtensionality.functional_extensionality_dep"
],
"c283_normalise_in_doubles": [
"ClassicalDedekindReals.sig_not_dec",
"ClassicalDedekindReals.sig_forall_dec",
"FunctionalExtensionality.functional_extensionality_dep",
"Classical_Prop.classic"
],
"c283_normalise_std_in_doubles": [
"ClassicalDedekindReals.sig_not_dec",
"ClassicalDedekindReals.sig_forall_dec",
"FunctionalExtensionality.functional_extensionality_dep",
"Classical_Prop.classic"
],
"c284_tiny_quaternions_refuted": [
"ClassicalDedekindReals.sig_not_dec",
"ClassicalDedekindReals.sig_forall_dec",
"FunctionalExtensionality.functional_extensionality_dep"
],
"c285_normalised_disorientation": [
"ClassicalDedekindReals.sig_not_dec",
"ClassicalDedekindReals.sig_forall_dec",
"FunctionalExtensionality.functional_extensionality_dep",
"Classical_Prop.classic"
],
"c286_components_at_most_one": [
"ClassicalDedekindReals.sig_not_dec",
"ClassicalDedekindReals.sig_forall_dec",
"FunctionalExtensionality.functional_extensionality_dep",
"Classical_Prop.classic"
],
"c286_rotation_angle_is_a_number": [
"ClassicalDedekindReals.sig_not_dec",
"ClassicalDedekindReals.sig_forall_dec",
"FunctionalExtensionality.functional_extensionality_dep",
"Classical_Prop.classic"
],
"c287_rotate_by_normalised": [
"ClassicalDedekindReals.sig_not_dec",
"ClassicalDedekindReals.sig_forall_dec",
"FunctionalExtensionality.functional_extensionality_dep",
"Classical_Prop.classic"
],
"c288_direction_error": [
"ClassicalDedekindReals.sig_not_dec",
"ClassicalDedekindReals.sig_forall_dec",
"FunctionalExtensionality.functional_extensionality_dep"
],
"c288_direction_in_doubles": [
"ClassicalDedekindReals.sig_not_dec",
"ClassicalDedekindReals.sig_forall_dec",
"FunctionalExtensionality.functional_extensionality_dep",
"Classical_Prop.classic"
],
"c289_dictionary_direction": [
"ClassicalDedekindReals.sig_not_dec",
"ClassicalDedekindReals.sig_forall_dec",
"FunctionalExtensionality.functional_extensionality_dep",
"Classical_Prop.classic"
],
"c28_axis_angle_roundtrip": [
"ClassicalDedekindReals.sig_not_dec",
"ClassicalDedekindReals.sig_forall_dec",
"FunctionalExtensionality.functional_extensionality_dep",
"Classical_Prop.classic"
],
"c28_near_half_turn": [
"ClassicalDedekindReals.sig_not_dec",
"ClassicalDedekindReals.sig_forall_dec",
"FunctionalExtensionality.functional_extensionality_dep",
"Classical_Prop.classic"
],
"c28_quaternion_roundtrip": [
"ClassicalDedekindReals.sig_not_dec",
"ClassicalDedekindReals.sig_forall_dec",
"FunctionalExtensionality.functional_extensionality_dep",
"Classical_Prop.classic"
],
"c28_rodrigues_roundtrip": [
"ClassicalDedekindReals.sig_not_dec",
"ClassicalDedekindReals.sig_forall_dec",
"FunctionalExtensionality.functional_extensionality_dep",
"Classical_Prop.classic"
],
"c290_matrix_error": [
"ClassicalDedekindReals.sig_forall_dec",
"FunctionalExtensionality.functional_extensionality_dep"
],
"c290_matrix_in_doubles": [
"ClassicalDedekindReals.sig_not_dec",
"ClassicalDedekindReals.sig_forall_dec",
"FunctionalExtensionality.functional_extensionality_dep",
"Classical_Prop.classic"
],
"c291_geometry_hypothesis": [
"ClassicalDedekindReals.sig_not_dec",
"ClassicalDedekindReals.sig_forall_dec",
"FunctionalExtensionality.functional_extensionality_dep",
"Classical_Prop.classic"
],
"c291_matrix_of_normalised": [
"ClassicalDedekindReals.sig_not_dec",
"ClassicalDedekindReals.sig_forall_dec",
"FunctionalExtensionality.functional_extensionality_dep",
"Classical_Prop.classic"
],
"c291_right_handed": [
"ClassicalDedekindReals.sig_not_dec",
"ClassicalDedekindReals.sig_forall_dec",
"FunctionalExtensionality.functional_extensionality_dep",
"Classical_Prop.classic"
],
"c292_matrix_of_product": [
"ClassicalDedekindReals.sig_not_dec",
"ClassicalDedekindReals.sig_forall_dec",
"FunctionalExtensionality.functional_extensionality_dep",
"Classical_Prop.classic"
],
"c293_euler_error": [
"ClassicalDedekindReals.sig_not_dec",
"ClassicalDedekindReals.sig_forall_dec",
"FunctionalExtensionality.functional_extensionality_dep",
"Classical_Prop.classic"
],
"c293_euler_in_doubles": [
"ClassicalDedekindReals.sig_not_dec",
"ClassicalDedekindReals.sig_forall_dec",
"FunctionalExtensionality.functional_extensionality_dep",
"Classical_Prop.classic"
],
"c294_euler_matrix_in_doubles": [
"ClassicalDedekindReals.sig_not_dec",
"ClassicalDedekindReals.sig_forall_dec",
"FunctionalExtensionality.functional_extensionality_dep",
"Classical_Prop.classic"
],
"c29_angles_roundtrip": [
"ClassicalDedekindReals.sig_not_dec",
"ClassicalDedekindReals.sig_forall_dec",
"FunctionalExtensionality.functional_extensionality_dep",
"Classical_Prop.classic"
],
"c29_bu2om_is_bunge_matrix": [
"ClassicalDedekindReals.sig_not_dec",
"ClassicalDedekindReals.sig_forall_dec",
"FunctionalExtensionality.functional_extensionality_dep"
],
"c29_bu2qu_is_inverse_zxz": [
"ClassicalDedekindReals.sig_not_dec",
"ClassicalDedekindReals.sig_forall_dec",
"FunctionalExtensionality.functional_extensionality_dep"
],
"c29_bu2qu_unit_standard": [
"ClassicalDedekindReals.sig_not_dec",
"ClassicalDedekindReals.sig_forall_dec",
"FunctionalExtensionality.functional_extensionality_dep"
],
"c29_qu2bu_range": [
"ClassicalDedekindReals.sig_not_dec",
"ClassicalDedekindReals.sig_forall_dec",
"FunctionalExtensionality.functional_extensionality_dep",
"Classical_Prop.classic"
],
"c29_quaternion_roundtrip": [
"ClassicalDedekindReals.sig_not_dec",
"ClassicalDedekindReals.sig_forall_dec",
"FunctionalExtensionality.functional_extensionality_dep",
"Classical_Prop.classic"
],
"c30_ax2ho_fills_ball": [
"ClassicalDedekindReals.sig_not_dec",
"ClassicalDedekindReals.sig_forall_dec",
"FunctionalExtensionality.functional_extensionality_dep",
"Classical_Prop.classic"
],
"c30_ax2ho_injective": [
"ClassicalDedekindReals.sig_not_dec",
"ClassicalDedekindReals.sig_forall_dec",
"FunctionalExtensionality.functional_extensionality_dep",
"Classical_Prop.classic"
],
"c30_ax2ho_norm": [
"ClassicalDedekindReals.sig_not_dec",
"ClassicalDedekindReals.sig_forall_dec",
"FunctionalExtensionality.functional_extensionality_dep",
"Classical_Prop.classic"
],
"c30_cu2ho_inverts_ho2cu": [
"ClassicalDedekindReals.sig_not_dec",
"ClassicalDedekindReals.sig_forall_dec",
"FunctionalExtensionality.functional_extensionality_dep",
"Classical_Prop.classic"
],
"c30_cube_is_ball": [
"ClassicalDedekindReals.sig_not_dec",
"ClassicalDedekindReals.sig_forall_dec",
"FunctionalExtensionality.functional_extensionality_dep",
"Classical_Prop.classic"
],
"c30_cube_symmetry": [
"ClassicalDedekindReals.sig_not_dec",
"ClassicalDedekindReals.sig_forall_dec",
"FunctionalExtensionality.functional_extensionality_dep",
"Classical_Prop.classic"
],
"c30_equal_volume": [
"ClassicalDedekindReals.sig_not_dec",
"ClassicalDedekindReals.sig_forall_dec",
"FunctionalExtensionality.functional_extensionality_dep",
"Classical_Prop.classic"
],
"c30_ho2ax_half_angle": [
"ClassicalDedekindReals.sig_not_dec",
"ClassicalDedekindReals.sig_forall_dec",
"FunctionalExtensionality.functional_extensionality_dep",
"Classical_Prop.classic"
],
"c30_ho2ax_recovers_axis": [
"ClassicalDedekindReals.sig_not_dec",
"ClassicalDedekindReals.sig_forall_dec",
"FunctionalExtensionality.functional_extensionality_dep",
"Classical_Prop.classic"
],
"c30_ho2ax_unit_axis": [
"ClassicalDedekindReals.sig_not_dec",
"ClassicalDedekindReals.sig_forall_dec",
"FunctionalExtensionality.functional_extensionality_dep",
"Classical_Prop.classic"
],
"c30_ho2cu_inverts_cu2ho": [
"ClassicalDedekindReals.sig_not_dec",
"ClassicalDedekindReals.sig_forall_dec",
"FunctionalExtensionality.functional_extensionality_dep",
"Classical_Prop.classic"
],
"c30_ho2qu_cu2qu_unit": [
"ClassicalDedekindReals.sig_not_dec",
"ClassicalDedekindReals.sig_forall_dec",
"FunctionalExtensionality.functional_extensionality_dep",
"Classical_Prop.classic"
],
"c30_norm": [
"ClassicalDedekindReals.sig_not_dec",
"ClassicalDedekindReals.sig_forall_dec",
"FunctionalExtensionality.functional_extensionality_dep",
"Classical_Prop.classic"
],
"c30_octant": [
"ClassicalDedekindReals.sig_not_dec",
"ClassicalDedekindReals.sig_forall_dec",
"FunctionalExtensionality.functional_extensionality_dep",
"Classical_Prop.classic"
],
"c30_qu2ho_in_ball": [
"ClassicalDedekindReals.sig_not_dec",
"ClassicalDedekindReals.sig_forall_dec",
"FunctionalExtensionality.functional_extensionality_dep",
"Classical_Prop.classic"
],
"c30_qu2ho_via_axis_angle": [
"ClassicalDedekindReals.sig_not_dec",
"ClassicalDedekindReals.sig_forall_dec",
"FunctionalExtensionality.functional_extensionality_dep",
"Classical_Prop.classic"
],
"c30_tie_order_irrelevant": [
"ClassicalDedekindReals.sig_not_dec",
"ClassicalDedekindReals.sig_forall_dec",
"FunctionalExtensionality.functional_extensionality_dep",
"Classical_Prop.classic"
],
"c30_zero_fixed": [
"ClassicalDedekindReals.sig_not_dec",
"ClassicalDedekindReals.sig_forall_dec",
"FunctionalExtensionality.functional_extensionality_dep",
"Classical_Prop.classic"
],
"c31_zh2om_dependent_nan": [
"ClassicalDedekindReals.sig_not_dec",
"ClassicalDedekindReals.sig_forall_dec",
"FunctionalExtensionality.functional_extensionality_dep"
],
"c31_zh2om_om2zh": [
"ClassicalDedekindReals.sig_not_dec",
"ClassicalDedekindReals.sig_forall_dec",
"FunctionalExtensionality.functional_extensionality_dep"
],
"c31_zh2om_rotation": [
"ClassicalDedekindReals.sig_not_dec",
"ClassicalDedekindReals.sig_forall_dec",
"FunctionalExtensionality.functional_extensionality_dep"
],
"c31_zh_quaternion_roundtrip": [
"ClassicalDedekindReals.sig_not_dec",
"ClassicalDedekindReals.sig_forall_dec",
"FunctionalExtensionality.functional_extensionality_dep"
],
"c32_angle_roundtrip": [
"ClassicalDedekindReals.sig_not_dec",
"ClassicalDedekindReals.sig_forall_dec",
"FunctionalExtensionality.functional_extensionality_dep",
"Classical_Prop.classic"
],
"c32_unit_vectors": [
"ClassicalDedekindReals.sig_not_dec",
"ClassicalDedekindReals.sig_forall_dec",
"FunctionalExtensionality.functional_extensionality_dep"
],
"c32_vector_roundtrip": [
"ClassicalDedekindReals.sig_not_dec",
"ClassicalDedekindReals.sig_forall_dec",
"FunctionalExtensionality.functional_extensionality_dep",
"Classical_Prop.classic"
],
"c33_equal_area": [
"ClassicalDedekindReals.sig_not_dec",
"ClassicalDedekindReals.sig_forall_dec",
"FunctionalExtensionality.functional_extensionality_dep",
"Classical_Prop.classic"
],
"c33_implementations_agree": [
"ClassicalDedekindReals.sig_not_dec",
"ClassicalDedekindReals.sig_forall_dec",
"FunctionalExtensionality.functional_extensionality_dep",
"Classical_Prop.classic"
],
"c33_into_square": [
"ClassicalDedekindReals.sig_not_dec",
"ClassicalDedekindReals.sig_forall_dec",
"FunctionalExtensionality.functional_extensionality_dep",
"Classical_Prop.classic"
],
"c33_onto_hemisphere": [
"ClassicalDedekindReals.sig_not_dec",
"ClassicalDedekindReals.sig_forall_dec",
"FunctionalExtensionality.functional_extensionality_dep"
],
"c33_point_roundtrip": [
"ClassicalDedekindReals.sig_not_dec",
"ClassicalDedekindReals.sig_forall_dec",
"FunctionalExtensionality.functional_extensionality_dep",
"Classical_Prop.classic"
],
"c33_square_roundtrip": [
"ClassicalDedekindReals.sig_not_dec",
"ClassicalDedekindReals.sig_forall_dec",
"FunctionalExtensionality.functional_extensionality_dep",
"Classical_Prop.classic"
],
"c34_halves": [
"ClassicalDedekindReals.sig_not_dec",
"ClassicalDedekindReals.sig_forall_dec",
"FunctionalExtensionality.functional_extensionality_dep",
"Classical_Prop.classic"
],
"c34_injective": [
"ClassicalDedekindReals.sig_not_dec",
"ClassicalDedekindReals.sig_forall_dec",
"FunctionalExtensionality.functional_extensionality_dep",
"Classical_Prop.classic"
],
"c35_cubochoric_grid": [
"ClassicalDedekindReals.sig_not_dec",
"ClassicalDedekindReals.sig_forall_dec",
"FunctionalExtensionality.functional_extensionality_dep",
"Classical_Prop.classic"
],
"c35_cubochoric_grid_distinct": [
"ClassicalDedekindReals.sig_not_dec",
"ClassicalDedekindReals.sig_forall_dec",
"FunctionalExtensionality.functional_extensionality_dep",
"Classical_Prop.classic"
],
"c35_s2_fibonacci_distinct": [
"ClassicalDedekindReals.sig_not_dec",
"ClassicalDedekindReals.sig_forall_dec",
"FunctionalExtensionality.functional_extensionality_dep",
"Classical_Prop.classic"
],
"c35_s2_fibonacci_equal_heights": [
"ClassicalDedekindReals.sig_not_dec",
"ClassicalDedekindReals.sig_forall_dec",
"FunctionalExtensionality.functional_extensionality_dep",
"Classical_Prop.classic"
],
"c35_s2_fibonacci_modes": [
"ClassicalDedekindReals.sig_not_dec",
"ClassicalDedekindReals.sig_forall_dec",
"FunctionalExtensionality.functional_extensionality_dep",
"Classical_Prop.classic"
],
"c35_s2_fibonacci_symmetric": [
"ClassicalDedekindReals.sig_not_dec",
"ClassicalDedekindReals.sig_forall_dec",
"FunctionalExtensionality.functional_extensionality_dep",
"Classical_Prop.classic"
],
"c35_s2_fibonacci_unit": [
"ClassicalDedekindReals.sig_not_dec",
"ClassicalDedekindReals.sig_forall_dec",
"FunctionalExtensionality.functional_extensionality_dep",
"Classical_Prop.classic"
],
"c35_so3_cu_rand": [
"ClassicalDedekindReals.sig_not_dec",
"ClassicalDedekindReals.sig_forall_dec",
"FunctionalExtensionality.functional_extensionality_dep",
"Classical_Prop.classic"
],
"c35_so3_fibonacci": [
"ClassicalDedekindReals.sig_not_dec",
"ClassicalDedekindReals.sig_forall_dec",
"FunctionalExtensionality.functional_extensionality_dep"
],
"c35_so3_fibonacci_constant": [
"ClassicalDedekindReals.sig_forall_dec",
"FunctionalExtensionality.functional_extensionality_dep"
],
"c35_so3_uniform_quat": [
"ClassicalDedekindReals.sig_not_dec",
"ClassicalDedekindReals.sig_forall_dec",
"FunctionalExtensionality.functional_extensionality_dep"
],
"c36_angle_sampler_fz_points": [
"ClassicalDedekindReals.sig_not_dec",
"ClassicalDedekindReals.sig_forall_dec",
"FunctionalExtensionality.functional_extensionality_dep",
"Classical_Prop.classic"
],
"c36_defined_iff_valid_id": [
"ClassicalDedekindReals.sig_not_dec",
"ClassicalDedekindReals.sig_forall_dec",
"FunctionalExtensionality.functional_extensionality_dep",
"Classical_Prop.classic"
],
"c36_only_and_all_fz_points": [
"ClassicalDedekindReals.sig_not_dec",
"ClassicalDedekindReals.sig_forall_dec",
"FunctionalExtensionality.functional_extensionality_dep",
"Classical_Prop.classic"
],
"c36_samples_have_smallest_angle": [
"ClassicalDedekindReals.sig_not_dec",
"ClassicalDedekindReals.sig_forall_dec",
"FunctionalExtensionality.functional_extensionality_dep",
"Classical_Prop.classic"
],
"c37_exp_is_rigid": [
"ClassicalDedekindReals.sig_not_dec",
"ClassicalDedekindReals.sig_forall_dec",
"FunctionalExtensionality.functional_extensionality_dep"
],
"c37_exp_rotates_about_omega": [
"ClassicalDedekindReals.sig_not_dec",
"ClassicalDedekindReals.sig_forall_dec",
"FunctionalExtensionality.functional_extensionality_dep"
],
"c37_exp_zero": [
"ClassicalDedekindReals.sig_not_dec",
"ClassicalDedekindReals.sig_forall_dec",
"FunctionalExtensionality.functional_extensionality_dep"
],
"c37_inverse_motion": [
"ClassicalDedekindReals.sig_not_dec",
"ClassicalDedekindReals.sig_forall_dec",
"FunctionalExtensionality.functional_extensionality_dep"
],
"c37_last_row": [
"ClassicalDedekindReals.sig_not_dec",
"ClassicalDedekindReals.sig_forall_dec",
"FunctionalExtensionality.functional_extensionality_dep"
],
"c37_one_parameter_group": [
"ClassicalDedekindReals.sig_not_dec",
"ClassicalDedekindReals.sig_forall_dec",
"FunctionalExtensionality.functional_extensionality_dep"
],
"c37_quaternion_form_agrees": [
"ClassicalDedekindReals.sig_not_dec",
"ClassicalDedekindReals.sig_forall_dec",
"FunctionalExtensionality.functional_extensionality_dep"
],
"c37_screw_translation": [
"ClassicalDedekindReals.sig_not_dec",
"ClassicalDedekindReals.sig_forall_dec",
"FunctionalExtensionality.functional_extensionality_dep"
],
"c37_small_angle_error": [
"ClassicalDedekindReals.sig_not_dec",
"ClassicalDedekindReals.sig_forall_dec",
"FunctionalExtensionality.functional_extensionality_dep",
"Classical_Prop.classic"
],
"c37_split_form_agrees": [
"ClassicalDedekindReals.sig_not_dec",
"ClassicalDedekindReals.sig_forall_dec",
"FunctionalExtensionality.functional_extensionality_dep"
],
"c37_v_matrices_inverse": [
"ClassicalDedekindReals.sig_not_dec",
"ClassicalDedekindReals.sig_forall_dec",
"FunctionalExtensionality.functional_extensionality_dep"
],
"c37_w_exp_rotates": [
"ClassicalDedekindReals.sig_not_dec",
"ClassicalDedekindReals.sig_forall_dec",
"FunctionalExtensionality.functional_extensionality_dep"
],
"c38_every_rotation_has_axis": [
"ClassicalDedekindReals.sig_not_dec",
"ClassicalDedekindReals.sig_forall_dec",
"FunctionalExtensionality.functional_extensionality_dep",
"Classical_Prop.classic"
],
"c38_exp_of_log": [
"ClassicalDedekindReals.sig_not_dec",
"ClassicalDedekindReals.sig_forall_dec",
"FunctionalExtensionality.functional_extensionality_dep",
"Classical_Prop.classic"
],
"c38_log_of_exp_om": [
"ClassicalDedekindReals.sig_not_dec",
"ClassicalDedekindReals.sig_forall_dec",
"FunctionalExtensionality.functional_extensionality_dep",
"Classical_Prop.classic"
],
"c38_log_of_exp_quat": [
"ClassicalDedekindReals.sig_not_dec",
"ClassicalDedekindReals.sig_forall_dec",
"FunctionalExtensionality.functional_extensionality_dep",
"Classical_Prop.classic"
],
"c38_log_of_exp_split": [
"ClassicalDedekindReals.sig_not_dec",
"ClassicalDedekindReals.sig_forall_dec",
"FunctionalExtensionality.functional_extensionality_dep",
"Classical_Prop.classic"
],
"c38_log_rotation_part": [
"ClassicalDedekindReals.sig_not_dec",
"ClassicalDedekindReals.sig_forall_dec",
"FunctionalExtensionality.functional_extensionality_dep",
"Classical_Prop.classic"
],
"c38_small_angle_error": [
"ClassicalDedekindReals.sig_not_dec",
"ClassicalDedekindReals.sig_forall_dec",
"FunctionalExtensionality.functional_extensionality_dep",
"Classical_Prop.classic"
],
"c39_bruker_is_rotation": [
"ClassicalDedekindReals.sig_not_dec",
"ClassicalDedekindReals.sig_forall_dec",
"FunctionalExtensionality.functional_extensionality_dep"
],
"c39_detector_normal": [
"ClassicalDedekindReals.sig_not_dec",
"ClassicalDedekindReals.sig_forall_dec",
"FunctionalExtensionality.functional_extensionality_dep"
],
"c39_from_inverts_to": [
"ClassicalDedekindReals.sig_not_dec",
"ClassicalDedekindReals.sig_forall_dec",
"FunctionalExtensionality.functional_extensionality_dep",
"Classical_Prop.classic"
],
"c39_pattern_centre_meaning": [
"ClassicalDedekindReals.sig_not_dec",
"ClassicalDedekindReals.sig_forall_dec",
"FunctionalExtensionality.functional_extensionality_dep"
],
"c40_backproject_inverts_project": [
"ClassicalDedekindReals.sig_not_dec",
"ClassicalDedekindReals.sig_forall_dec",
"FunctionalExtensionality.functional_extensionality_dep"
],
"c40_constructed_geometry_is_rigid": [
"ClassicalDedekindReals.sig_not_dec",
"ClassicalDedekindReals.sig_forall_dec",
"FunctionalExtensionality.functional_extensionality_dep"
],
"c40_detector_to_sample_is_rotation": [
"ClassicalDedekindReals.sig_not_dec",
"ClassicalDedekindReals.sig_forall_dec",
"FunctionalExtensionality.functional_extensionality_dep"
],
"c40_origin_on_detector": [
"ClassicalDedekindReals.sig_not_dec",
"ClassicalDedekindReals.sig_forall_dec",
"FunctionalExtensionality.functional_extensionality_dep"
],
"c40_project_of_backprojection_on_ray": [
"ClassicalDedekindReals.sig_not_dec",
"ClassicalDedekindReals.sig_forall_dec",
"FunctionalExtensionality.functional_extensionality_dep"
],
"c40_projection_is_isometric": [
"ClassicalDedekindReals.sig_not_dec",
"ClassicalDedekindReals.sig_forall_dec",
"FunctionalExtensionality.functional_extensionality_dep"
],
"c40_ray_length_irrelevant": [
"ClassicalDedekindReals.sig_not_dec",
"ClassicalDedekindReals.sig_forall_dec",
"FunctionalExtensionality.functional_extensionality_dep"
],
"c40_untuned_roundtrip": [
"ClassicalDedekindReals.sig_not_dec",
"ClassicalDedekindReals.sig_forall_dec",
"FunctionalExtensionality.functional_extensionality_dep"
],
"c41_grid": [
"ClassicalDedekindReals.sig_not_dec",
"ClassicalDedekindReals.sig_forall_dec",
"FunctionalExtensionality.functional_extensionality_dep"
],
"c41_indivisible_binning_raises": [
"ClassicalDedekindReals.sig_not_dec",
"ClassicalDedekindReals.sig_forall_dec",
"FunctionalExtensionality.functional_extensionality_dep"
],
"c42_all_orientations_last_set": [],
"c42_coords_last_set": [],
"c42_get_patterns_addressed": [
"ClassicalDedekindReals.sig_forall_dec",
"FunctionalExtensionality.functional_extensionality_dep"
],
"c42_init_layout": [
"ClassicalDedekindReals.sig_forall_dec"
],
"c42_init_ranks": [],
"c42_init_spatial_shape": [],
"c42_orientations_last_set": [],
"c42_setters_touch_nothing_else": [],
"c42_shape_mismatch": [],
"c42_spec_is_deterministic": [],
"c42_valid_calls_succeed": [],
"c43_background_pixel_mean": [
"ClassicalDedekindReals.sig_forall_dec",
"FunctionalExtensionality.functional_extensionality_dep"
],
"c43_binned_patterns": [
"ClassicalDedekindReals.sig_forall_dec",
"FunctionalExtensionality.functional_extensionality_dep"
],
"c43_minmax": [
"ClassicalDedekindReals.sig_not_dec",
"ClassicalDedekindReals.sig_forall_dec",
"FunctionalExtensionality.functional_extensionality_dep"
],
"c43_minmax_keeps_pixel_order": [
"ClassicalDedekindReals.sig_not_dec",
"ClassicalDedekindReals.sig_forall_dec",
"FunctionalExtensionality.functional_extensionality_dep"
],
"c43_normalise_keeps_shape": [
"ClassicalDedekindReals.sig_not_dec",
"ClassicalDedekindReals.sig_forall_dec",
"FunctionalExtensionality.functional_extensionality_dep"
],
"c43_standard": [
"ClassicalDedekindReals.sig_not_dec",
"ClassicalDedekindReals.sig_forall_dec",
"FunctionalExtensionality.functional_extensionality_dep"
],
"c43_zeromean": [
"ClassicalDedekindReals.sig_not_dec",
"ClassicalDedekindReals.sig_forall_dec",
"FunctionalExtensionality.functional_extensionality_dep"
],
"c44_last_results_win": [
"ClassicalDedekindReals.sig_forall_dec"
],
"c44_phases_needed": [],
"c44_phases_partition": [],
"c44_results_needed": [
"ClassicalDedekindReals.sig_forall_dec"
],
"c44_single_phase": [
"ClassicalDedekindReals.sig_forall_dec"
],
"c45_cache_bounded": [
"ClassicalDedekindReals.sig_not_dec",
"ClassicalDedekindReals.sig_forall_dec",
"FunctionalExtensionality.functional_extensionality_dep",
"Classical_Prop.classic"
],
"c45_exactly_one_group": [],
"c45_first_virtual_binning": [
"ClassicalDedekindReals.sig_not_dec",
"ClassicalDedekindReals.sig_forall_dec",
"FunctionalExtensionality.functional_extensionality_dep",
"Classical_Prop.classic"
],
"c45_group_choice": [],
"c45_hemispheres_side_by_side": [
"ClassicalDedekindReals.sig_forall_dec"
],
"c45_interpolation_is_pointwise": [
"ClassicalDedekindReals.sig_not_dec",
"ClassicalDedekindReals.sig_forall_dec",
"FunctionalExtensionality.functional_extensionality_dep",
"Classical_Prop.classic"
],
"c45_interpolation_succeeds": [
"ClassicalDedekindReals.sig_not_dec",
"ClassicalDedekindReals.sig_forall_dec",
"FunctionalExtensionality.functional_extensionality_dep",
"Classical_Prop.classic"
],
"c46_all_components_lossless": [
"ClassicalDedekindReals.sig_forall_dec",
"FunctionalExtensionality.functional_extensionality_dep"
],
"c46_leading_component_dropped_refuted": [],
"c46_no_component_kept_refuted": [
"ClassicalDedekindReals.sig_forall_dec",
"FunctionalExtensionality.functional_extensionality_dep"
],
"c46_search_in_projection": [
"ClassicalDedekindReals.sig_forall_dec",
"FunctionalExtensionality.functional_extensionality_dep"
],
"c46_when_correct": [],
"c47_chunk_sizes_irrelevant": [
"ClassicalDedekindReals.sig_forall_dec",
"FunctionalExtensionality.functional_extensionality_dep"
],
"c47_indexing_is_exhaustive_search": [
"ClassicalDedekindReals.sig_forall_dec",
"FunctionalExtensionality.functional_extensionality_dep"
],
"c48_local_grid": [
"ClassicalDedekindReals.sig_not_dec",
"ClassicalDedekindReals.sig_forall_dec",
"FunctionalExtensionality.functional_extensionality_dep",
"Classical_Prop.classic"
],
"c48_other_dimensions_rejected": [
"ClassicalDedekindReals.sig_not_dec",
"ClassicalDedekindReals.sig_forall_dec",
"FunctionalExtensionality.functional_extensionality_dep",
"Classical_Prop.classic"
],
"c48_symmetric": [
"ClassicalDedekindReals.sig_not_dec",
"ClassicalDedekindReals.sig_forall_dec",
"FunctionalExtensionality.functional_extensionality_dep",
"Classical_Prop.classic"
],
"c49_first_iteration_is_exhaustive": [
"ClassicalDedekindReals.sig_not_dec",
"ClassicalDedekindReals.sig_forall_dec",
"FunctionalExtensionality.functional_extensionality_dep",
"Classical_Prop.classic"
],
"c49_grid_refinement_never_worse": [
"ClassicalDedekindReals.sig_not_dec",
"ClassicalDedekindReals.sig_forall_dec",
"FunctionalExtensionality.functional_extensionality_dep",
"Classical_Prop.classic"
],
"c49_scan_refines_every_pattern": [
"ClassicalDedekindReals.sig_not_dec",
"ClassicalDedekindReals.sig_forall_dec",
"FunctionalExtensionality.functional_extensionality_dep",
"Classical_Prop.classic"
],
"c50_acceptance_rule": [
"ClassicalDedekindReals.sig_forall_dec",
"FunctionalExtensionality.functional_extensionality_dep"
],
"c50_accepted_was_worse": [
"ClassicalDedekindReals.sig_forall_dec",
"FunctionalExtensionality.functional_extensionality_dep"
],
"c50_improvement_kept_refuted": [
"ClassicalDedekindReals.sig_forall_dec",
"FunctionalExtensionality.functional_extensionality_dep"
],
"c50_improvements_discarded": [
"ClassicalDedekindReals.sig_forall_dec",
"FunctionalExtensionality.functional_extensionality_dep"
],
"c50_zero_iterations_fail": [],
"c51_batch_size_irrelevant_to_similarity": [
"ClassicalDedekindReals.sig_forall_dec",
"FunctionalExtensionality.functional_extensionality_dep"
],
"c51_global_best": [
"ClassicalDedekindReals.sig_forall_dec",
"FunctionalExtensionality.functional_extensionality_dep"
],
"c51_lag_is_window": [
"ClassicalDedekindReals.sig_forall_dec",
"FunctionalExtensionality.functional_extensionality_dep"
],
"c51_single_batch": [
"ClassicalDedekindReals.sig_forall_dec",
"FunctionalExtensionality.functional_extensionality_dep"
],
"c52_exactly": [],
"c52_precedence_refuted": [],
"c52_refuted": [],
"c52_true_class_elsewhere": [],
"c53_exact_without_coincidences": [
"ClassicalDedekindReals.sig_not_dec",
"ClassicalDedekindReals.sig_forall_dec",
"FunctionalExtensionality.functional_extensionality_dep",
"Classical_Prop.classic"
],
"c53_histogram": [
"ClassicalDedekindReals.sig_not_dec",
"ClassicalDedekindReals.sig_forall_dec",
"FunctionalExtensionality.functional_extensionality_dep",
"Classical_Prop.classic"
],
"c54_result_is_a_pass": [
"ClassicalDedekindReals.sig_not_dec",
"ClassicalDedekindReals.sig_forall_dec",
"FunctionalExtensionality.functional_extensionality_dep",
"Classical_Prop.classic"
],
"c54_scatter_angle": [
"ClassicalDedekindReals.sig_not_dec",
"ClassicalDedekindReals.sig_forall_dec",
"FunctionalExtensionality.functional_extensionality_dep"
],
"c54_scatter_angle_near_pole": [
"ClassicalDedekindReals.sig_not_dec",
"ClassicalDedekindReals.sig_forall_dec",
"FunctionalExtensionality.functional_extensionality_dep"
],
"c54_scatter_unit": [
"ClassicalDedekindReals.sig_not_dec",
"ClassicalDedekindReals.sig_forall_dec",
"FunctionalExtensionality.functional_extensionality_dep"
],
"c54_terminates": [
"ClassicalDedekindReals.sig_not_dec",
"ClassicalDedekindReals.sig_forall_dec",
"FunctionalExtensionality.functional_extensionality_dep",
"Classical_Prop.classic"
],
"c54_unit_directions": [
"ClassicalDedekindReals.sig_not_dec",
"ClassicalDedekindReals.sig_forall_dec",
"FunctionalExtensionality.functional_extensionality_dep",
"Classical_Prop.classic"
],
"c55_blend_by_position": [
"ClassicalDedekindReals.sig_forall_dec",
"FunctionalExtensionality.functional_extensionality_dep"
],
"c55_cdf_ends_at_one": [
"ClassicalDedekindReals.sig_forall_dec",
"FunctionalExtensionality.functional_extensionality_dep"
],
"c55_constant_stays_constant": [
"ClassicalDedekindReals.sig_forall_dec",
"FunctionalExtensionality.functional_extensionality_dep"
],
"c55_contrast_limited": [
"ClassicalDedekindReals.sig_forall_dec",
"FunctionalExtensionality.functional_extensionality_dep"
],
"c55_empirical_distribution": [
"ClassicalDedekindReals.sig_forall_dec",
"FunctionalExtensionality.functional_extensionality_dep"
],
"c55_local_tone_curves": [
"ClassicalDedekindReals.sig_forall_dec",
"FunctionalExtensionality.functional_extensionality_dep"
],
"c55_out_of_range_rejected": [
"ClassicalDedekindReals.sig_forall_dec",
"FunctionalExtensionality.functional_extensionality_dep"
],
"c55_output_in_unit_range": [
"ClassicalDedekindReals.sig_forall_dec",
"FunctionalExtensionality.functional_extensionality_dep"
],
"c55_redistribution_even": [],
"c55_redistribution_keeps_count": [
"ClassicalDedekindReals.sig_forall_dec",
"FunctionalExtensionality.functional_extensionality_dep"
],
"c55_shape": [
"ClassicalDedekindReals.sig_forall_dec",
"FunctionalExtensionality.functional_extensionality_dep"
],
"c55_single_tile_keeps_order": [
"ClassicalDedekindReals.sig_forall_dec",
"FunctionalExtensionality.functional_extensionality_dep"
],
"c55_tile_contents": [
"ClassicalDedekindReals.sig_forall_dec"
],
"c55_tiles_hold_image_pixels": [
"ClassicalDedekindReals.sig_forall_dec"
],
"c55_tiles_partition": [],
"c55_unit_range_images_accepted": [
"ClassicalDedekindReals.sig_forall_dec",
"FunctionalExtensionality.functional_extensionality_dep"
],
"c56_average_of_neighbours": [
"ClassicalDedekindReals.sig_not_dec",
"ClassicalDedekindReals.sig_forall_dec",
"FunctionalExtensionality.functional_extensionality_dep",
"Classical_Prop.classic"
],
"c56_bias_towards_original": [
"ClassicalDedekindReals.sig_not_dec",
"ClassicalDedekindReals.sig_forall_dec",
"FunctionalExtensionality.functional_extensionality_dep",
"Classical_Prop.classic"
],
"c56_defined_when_distinct": [
"ClassicalDedekindReals.sig_not_dec",
"ClassicalDedekindReals.sig_forall_dec",
"FunctionalExtensionality.functional_extensionality_dep"
],
"c56_edge_neighbours_estimate_noise": [],
"c56_no_overshoot": [
"ClassicalDedekindReals.sig_not_dec",
"ClassicalDedekindReals.sig_forall_dec",
"FunctionalExtensionality.functional_extensionality_dep",
"Classical_Prop.classic"
],
"c56_self_is_first": [],
"c56_weights_and_bandwidth": [
"ClassicalDedekindReals.sig_not_dec",
"ClassicalDedekindReals.sig_forall_dec",
"FunctionalExtensionality.functional_extensionality_dep",
"Classical_Prop.classic"
],
"c57_even_size_kept": [
"ClassicalDedekindReals.sig_not_dec",
"ClassicalDedekindReals.sig_forall_dec",
"FunctionalExtensionality.functional_extensionality_dep"
],
"c57_flip_equivariant": [
"ClassicalDedekindReals.sig_not_dec",
"ClassicalDedekindReals.sig_forall_dec",
"FunctionalExtensionality.functional_extensionality_dep"
],
"c57_kernel_normalised": [
"ClassicalDedekindReals.sig_not_dec",
"ClassicalDedekindReals.sig_forall_dec",
"FunctionalExtensionality.functional_extensionality_dep"
],
"c57_kernel_size": [
"ClassicalDedekindReals.sig_forall_dec",
"FunctionalExtensionality.functional_extensionality_dep"
],
"c57_kernel_symmetric": [
"ClassicalDedekindReals.sig_not_dec",
"ClassicalDedekindReals.sig_forall_dec",
"FunctionalExtensionality.functional_extensionality_dep",
"Classical_Prop.classic"
],
"c57_no_overshoot": [
"ClassicalDedekindReals.sig_not_dec",
"ClassicalDedekindReals.sig_forall_dec",
"FunctionalExtensionality.functional_extensionality_dep"
],
"c57_no_overshoot_zero_padding": [
"ClassicalDedekindReals.sig_not_dec",
"ClassicalDedekindReals.sig_forall_dec",
"FunctionalExtensionality.functional_extensionality_dep"
],
"c57_reflect_accepts": [
"ClassicalDedekindReals.sig_not_dec",
"ClassicalDedekindReals.sig_forall_dec",
"FunctionalExtensionality.functional_extensionality_dep"
],
"c58_slerp_batch_shape_refuted": [],
"c58_slerp_single_shape": [],
"c59_slerp_equal_endpoints_refuted": [
"ClassicalDedekindReals.sig_not_dec",
"ClassicalDedekindReals.sig_forall_dec",
"FunctionalExtensionality.functional_extensionality_dep",
"Classical_Prop.classic"
],
"c60_closed_form_rejects_other_ids": [
"ClassicalDedekindReals.sig_not_dec",
"ClassicalDedekindReals.sig_forall_dec",
"FunctionalExtensionality.functional_extensionality_dep"
],
"c60_invalid_id_raises_refuted": [
"ClassicalDedekindReals.sig_not_dec",
"ClassicalDedekindReals.sig_forall_dec",
"FunctionalExtensionality.functional_extensionality_dep"
],
"c60_other_ids": [
"ClassicalDedekindReals.sig_not_dec",
"ClassicalDedekindReals.sig_forall_dec",
"FunctionalExtensionality.functional_extensionality_dep"
],
"c61_equivalent_orientations_refuted": [
"ClassicalDedekindReals.sig_not_dec",
"ClassicalDedekindReals.sig_forall_dec",
"FunctionalExtensionality.functional_extensionality_dep",
"Classical_Prop.classic"
],
"c61_two_groups_left_invariance_refuted": [
"ClassicalDedekindReals.sig_not_dec",
"ClassicalDedekindReals.sig_forall_dec",
"FunctionalExtensionality.functional_extensionality_dep",
"Classical_Prop.classic"
],
"c62_repeated_query_refuted": [
"ClassicalDedekindReals.sig_forall_dec",
"FunctionalExtensionality.functional_extensionality_dep"
],
"c63_empty_batch_refuted": [
"ClassicalDedekindReals.sig_forall_dec",
"FunctionalExtensionality.functional_extensionality_dep"
],
"c64_single_component_refuted": [],
"c65_components_orthonormal": [
"ClassicalDedekindReals.sig_forall_dec"
],
"c65_transform_inverts": [
"ClassicalDedekindReals.sig_forall_dec",
"FunctionalExtensionality.functional_extensionality_dep"
],
"c66_column_is_the_draw": [
"ClassicalDedekindReals.sig_forall_dec"
],
"c66_oja_plus_orthonormal_refuted": [
"ClassicalDedekindReals.sig_forall_dec",
"FunctionalExtensionality.functional_extensionality_dep"
],
"c67_residual_orthogonal": [
"ClassicalDedekindReals.sig_forall_dec",
"FunctionalExtensionality.functional_extensionality_dep"
],
"c67_step_size": [
"ClassicalDedekindReals.sig_not_dec",
"ClassicalDedekindReals.sig_forall_dec",
"FunctionalExtensionality.functional_extensionality_dep"
],
"c67_transform_inverts": [
"ClassicalDedekindReals.sig_forall_dec",
"FunctionalExtensionality.functional_extensionality_dep"
],
"c68_factors_prime_refuted": [],
"c69_terminates_refuted": [],
"c69_trial_division_zero": [],
"c70_half_turn_roundtrip_iff": [
"ClassicalDedekindReals.sig_not_dec",
"ClassicalDedekindReals.sig_forall_dec",
"FunctionalExtensionality.functional_extensionality_dep"
],
"c70_half_turn_roundtrip_refuted": [
"ClassicalDedekindReals.sig_not_dec",
"ClassicalDedekindReals.sig_forall_dec",
"FunctionalExtensionality.functional_extensionality_dep"
],
"c71_minus_identity_is_nan_refuted": [
"ClassicalDedekindReals.sig_not_dec",
"ClassicalDedekindReals.sig_forall_dec",
"FunctionalExtensionality.functional_extensionality_dep",
"Classical_Prop.classic"
],
"c71_negative_real_part_gives_inverse": [
"ClassicalDedekindReals.sig_not_dec",
"ClassicalDedekindReals.sig_forall_dec",
"FunctionalExtensionality.functional_extensionality_dep",
"Classical_Prop.classic"
],
"c71_negative_real_part_refuted": [
"ClassicalDedekindReals.sig_not_dec",
"ClassicalDedekindReals.sig_forall_dec",
"FunctionalExtensionality.functional_extensionality_dep",
"Classical_Prop.classic"
],
"c72_negative_angle_refuted": [
"ClassicalDedekindReals.sig_not_dec",
"ClassicalDedekindReals.sig_forall_dec",
"FunctionalExtensionality.functional_extensionality_dep",
"Classical_Prop.classic"
],
"c72_small_angles_not_orthogonal_refuted": [
"ClassicalDedekindReals.sig_not_dec",
"ClassicalDedekindReals.sig_forall_dec",
"FunctionalExtensionality.functional_extensionality_dep"
],
"c73_om2ax_half_turn_nan_refuted": [
"ClassicalDedekindReals.sig_not_dec",
"ClassicalDedekindReals.sig_forall_dec",
"FunctionalExtensionality.functional_extensionality_dep",
"Classical_Prop.classic"
],
"c73_om2ax_identity_nan_refuted": [
"ClassicalDedekindReals.sig_not_dec",
"ClassicalDedekindReals.sig_forall_dec",
"FunctionalExtensionality.functional_extensionality_dep",
"Classical_Prop.classic"
],
"c74_ax2bu_same_rotation": [
"ClassicalDedekindReals.sig_not_dec",
"ClassicalDedekindReals.sig_forall_dec",
"FunctionalExtensionality.functional_extensionality_dep",
"Classical_Prop.classic"
],
"c74_bu2ax_same_rotation": [
"ClassicalDedekindReals.sig_not_dec",
"ClassicalDedekindReals.sig_forall_dec",
"FunctionalExtensionality.functional_extensionality_dep",
"Classical_Prop.classic"
],
"c74_om2ro_same_rotation": [
"ClassicalDedekindReals.sig_not_dec",
"ClassicalDedekindReals.sig_forall_dec",
"FunctionalExtensionality.functional_extensionality_dep",
"Classical_Prop.classic"
],
"c74_om_bu_om": [
"ClassicalDedekindReals.sig_not_dec",
"ClassicalDedekindReals.sig_forall_dec",
"FunctionalExtensionality.functional_extensionality_dep",
"Classical_Prop.classic"
],
"c74_ro2bu_same_rotation": [
"ClassicalDedekindReals.sig_not_dec",
"ClassicalDedekindReals.sig_forall_dec",
"FunctionalExtensionality.functional_extensionality_dep",
"Classical_Prop.classic"
],
"c75_clifford_even": [
"ClassicalDedekindReals.sig_not_dec",
"ClassicalDedekindReals.sig_forall_dec",
"FunctionalExtensionality.functional_extensionality_dep",
"Classical_Prop.classic"
],
"c75_clifford_identifies_rotation": [
"ClassicalDedekindReals.sig_not_dec",
"ClassicalDedekindReals.sig_forall_dec",
"FunctionalExtensionality.functional_extensionality_dep",
"Classical_Prop.classic"
],
"c76_negative_real_part_outside_ball": [
"ClassicalDedekindReals.sig_not_dec",
"ClassicalDedekindReals.sig_forall_dec",
"FunctionalExtensionality.functional_extensionality_dep",
"Classical_Prop.classic"
],
"c76_qu2ho_ball_refuted": [
"ClassicalDedekindReals.sig_not_dec",
"ClassicalDedekindReals.sig_forall_dec",
"FunctionalExtensionality.functional_extensionality_dep",
"Classical_Prop.classic"
],
"c76_sign_dependent": [
"ClassicalDedekindReals.sig_not_dec",
"ClassicalDedekindReals.sig_forall_dec",
"FunctionalExtensionality.functional_extensionality_dep",
"Classical_Prop.classic"
],
"c77_newton_axis_length": [
"ClassicalDedekindReals.sig_not_dec",
"ClassicalDedekindReals.sig_forall_dec",
"FunctionalExtensionality.functional_extensionality_dep"
],
"c77_newton_axis_unit_refuted": [
"ClassicalDedekindReals.sig_not_dec",
"ClassicalDedekindReals.sig_forall_dec",
"FunctionalExtensionality.functional_extensionality_dep"
],
"c78_argument_unchanged_iff": [
"ClassicalDedekindReals.sig_not_dec",
"ClassicalDedekindReals.sig_forall_dec",
"FunctionalExtensionality.functional_extensionality_dep",
"Classical_Prop.classic"
],
"c78_argument_unchanged_refuted": [
"ClassicalDedekindReals.sig_not_dec",
"ClassicalDedekindReals.sig_forall_dec",
"FunctionalExtensionality.functional_extensionality_dep",
"Classical_Prop.classic"
],
"c79_direct_result": [
"ClassicalDedekindReals.sig_not_dec",
"ClassicalDedekindReals.sig_forall_dec",
"FunctionalExtensionality.functional_extensionality_dep",
"Classical_Prop.classic"
],
"c79_direct_roundtrip_refuted": [
"ClassicalDedekindReals.sig_not_dec",
"ClassicalDedekindReals.sig_forall_dec",
"FunctionalExtensionality.functional_extensionality_dep",
"Classical_Prop.classic"
],
"c80_unit_iff": [
"ClassicalDedekindReals.sig_not_dec",
"ClassicalDedekindReals.sig_forall_dec",
"FunctionalExtensionality.functional_extensionality_dep"
],
"c80_unit_refuted": [
"ClassicalDedekindReals.sig_not_dec",
"ClassicalDedekindReals.sig_forall_dec",
"FunctionalExtensionality.functional_extensionality_dep"
],
"c81_pole_roundtrip_refuted": [
"ClassicalDedekindReals.sig_not_dec",
"ClassicalDedekindReals.sig_forall_dec",
"FunctionalExtensionality.functional_extensionality_dep",
"Classical_Prop.classic"
],
"c81_undefined_iff": [
"ClassicalDedekindReals.sig_not_dec",
"ClassicalDedekindReals.sig_forall_dec",
"FunctionalExtensionality.functional_extensionality_dep"
],
"c82_same_step_for_all_groups_refuted": [
"ClassicalDedekindReals.sig_not_dec",
"ClassicalDedekindReals.sig_forall_dec",
"FunctionalExtensionality.functional_extensionality_dep",
"Classical_Prop.classic"
],
"c83_s2_equiv_refuted": [
"ClassicalDedekindReals.sig_not_dec",
"ClassicalDedekindReals.sig_forall_dec",
"FunctionalExtensionality.functional_extensionality_dep"
],
"c84_cubic_high_planes_refuted": [
"ClassicalDedekindReals.sig_not_dec",
"ClassicalDedekindReals.sig_forall_dec",
"FunctionalExtensionality.functional_extensionality_dep",
"Classical_Prop.classic"
],
"c84_triclinic_equator_refuted": [
"ClassicalDedekindReals.sig_not_dec",
"ClassicalDedekindReals.sig_forall_dec",
"FunctionalExtensionality.functional_extensionality_dep",
"Classical_Prop.classic"
],
"c84_trigonal_pole_refuted": [
"ClassicalDedekindReals.sig_not_dec",
"ClassicalDedekindReals.sig_forall_dec",
"FunctionalExtensionality.functional_extensionality_dep",
"Classical_Prop.classic"
],
"c85_rows_misaligned_refuted": [
"ClassicalDedekindReals.sig_not_dec",
"ClassicalDedekindReals.sig_forall_dec",
"FunctionalExtensionality.functional_extensionality_dep",
"Classical_Prop.classic"
],
"c86_every_small_angle_is_shrunk": [
"ClassicalDedekindReals.sig_not_dec",
"ClassicalDedekindReals.sig_forall_dec",
"FunctionalExtensionality.functional_extensionality_dep",
"Classical_Prop.classic"
],
"c86_half_turn_has_no_log": [
"ClassicalDedekindReals.sig_not_dec",
"ClassicalDedekindReals.sig_forall_dec",
"FunctionalExtensionality.functional_extensionality_dep",
"Classical_Prop.classic"
],
"c86_log_of_exp_small_refuted": [
"ClassicalDedekindReals.sig_not_dec",
"ClassicalDedekindReals.sig_forall_dec",
"FunctionalExtensionality.functional_extensionality_dep",
"Classical_Prop.classic"
],
"c87_small_exp_is_rotation_refuted": [
"ClassicalDedekindReals.sig_not_dec",
"ClassicalDedekindReals.sig_forall_dec",
"FunctionalExtensionality.functional_extensionality_dep"
],
"c87_small_exp_quaternion_is_unit_refuted": [
"ClassicalDedekindReals.sig_not_dec",
"ClassicalDedekindReals.sig_forall_dec",
"FunctionalExtensionality.functional_extensionality_dep",
"Classical_Prop.classic"
],
"c88_batch_of_three_refuted": [
"ClassicalDedekindReals.sig_not_dec",
"ClassicalDedekindReals.sig_forall_dec",
"FunctionalExtensionality.functional_extensionality_dep",
"Classical_Prop.classic"
],
"c88_batch_shapes_refuted": [],
"c88_flat_batch_ok": [],
"c89_default_tilt_roundtrip_refuted": [
"ClassicalDedekindReals.sig_not_dec",
"ClassicalDedekindReals.sig_forall_dec",
"FunctionalExtensionality.functional_extensionality_dep",
"Classical_Prop.classic"
],
"c89_negative_tilts_flip_sign": [
"ClassicalDedekindReals.sig_not_dec",
"ClassicalDedekindReals.sig_forall_dec",
"FunctionalExtensionality.functional_extensionality_dep",
"Classical_Prop.classic"
],
"c90_last_pixel": [
"ClassicalDedekindReals.sig_forall_dec",
"FunctionalExtensionality.functional_extensionality_dep"
],
"c90_offset": [
"ClassicalDedekindReals.sig_forall_dec",
"FunctionalExtensionality.functional_extensionality_dep"
],
"c90_pixel_centres_refuted": [
"ClassicalDedekindReals.sig_forall_dec",
"FunctionalExtensionality.functional_extensionality_dep"
],
"c91_initial_se3_vector_used_refuted": [
"ClassicalDedekindReals.sig_not_dec",
"ClassicalDedekindReals.sig_forall_dec",
"FunctionalExtensionality.functional_extensionality_dep"
],
"c91_masked_off_is_pattern_centre": [
"ClassicalDedekindReals.sig_not_dec",
"ClassicalDedekindReals.sig_forall_dec",
"FunctionalExtensionality.functional_extensionality_dep"
],
"c92_grid_count_and_errors": [
"ClassicalDedekindReals.sig_not_dec",
"ClassicalDedekindReals.sig_forall_dec",
"FunctionalExtensionality.functional_extensionality_dep"
],
"c92_undeformed_is_rotated_pixel_ray": [
"ClassicalDedekindReals.sig_not_dec",
"ClassicalDedekindReals.sig_forall_dec",
"FunctionalExtensionality.functional_extensionality_dep"
],
"c92_unit_directions": [
"ClassicalDedekindReals.sig_not_dec",
"ClassicalDedekindReals.sig_forall_dec",
"FunctionalExtensionality.functional_extensionality_dep"
],
"c92_volumetric_scaling_invisible": [
"ClassicalDedekindReals.sig_not_dec",
"ClassicalDedekindReals.sig_forall_dec",
"FunctionalExtensionality.functional_extensionality_dep"
],
"c93_mask_update": [],
"c93_masked_components_ignored": [
"ClassicalDedekindReals.sig_not_dec",
"ClassicalDedekindReals.sig_forall_dec",
"FunctionalExtensionality.functional_extensionality_dep"
],
"c94_indexed_write_needs_full_write": [],
"c94_unset_coords_error_refuted": [],
"c95_multi_phase_indexing_refuted": [
"ClassicalDedekindReals.sig_forall_dec",
"FunctionalExtensionality.functional_extensionality_dep"
],
"c95_several_phases_refuted": [
"ClassicalDedekindReals.sig_forall_dec"
],
"c95_single_nonzero_phase_refuted": [
"ClassicalDedekindReals.sig_forall_dec"
],
"c96_failed_normalise_changes_state_refuted": [
"ClassicalDedekindReals.sig_not_dec",
"ClassicalDedekindReals.sig_forall_dec",
"FunctionalExtensionality.functional_extensionality_dep"
],
"c97_caller_data_modified_refuted": [
"ClassicalDedekindReals.sig_forall_dec",
"FunctionalExtensionality.functional_extensionality_dep"
],
"c97_safe_after_clahe": [
"ClassicalDedekindReals.sig_forall_dec",
"FunctionalExtensionality.functional_extensionality_dep"
],
"c97_same_storage_until_clahe": [
"ClassicalDedekindReals.sig_forall_dec",
"FunctionalExtensionality.functional_extensionality_dep"
],
"c98_one_pattern_phase_rank_refuted": [
"ClassicalDedekindReals.sig_forall_dec"
],
"c98_rank_one_otherwise": [],
"c99_broadcast_refuted": [
"ClassicalDedekindReals.sig_forall_dec"
],
"c99_default_identity": [
"ClassicalDedekindReals.sig_forall_dec"
],
"c99_stored_unchanged": [
"ClassicalDedekindReals.sig_forall_dec"
]
}
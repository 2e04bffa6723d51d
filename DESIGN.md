# Formal model of ebsdtorch in Rocq (Coq 8.16.1)

Generated by `tools/design.py` from hand-written parts (`tools/design_head.md`, `tools/design_areas.md`, `tools/methods.py`,
`tools/design_cov.py`), the property list, the manifest and the recorded output of `Print Assumptions`.

## Approach

`/repo` is read as text; nothing is executed. Each modelled Python function becomes a small Gallina function with a comment
citing file and lines. Layout under `rocq/theories/`:

* `<Area>Model.v` – definitions only, mirroring the code branch by branch;
* `<Area>Spec.v` – short specifications that do not mention the model;
* `<Area>Proofs.v` and further files – lemmas;
* `<Area>Props.v` – property theorems `cNN_...`, with `Print Assumptions` and a non-vacuity `Example` beside them.

When the code violates a property, the theorem carries the suffix `_refuted` and exhibits a witness (usually as the negation of
the universally quantified claim); what does hold is proved beside it, often as an exact "if and only if" describing where the
claim is true. `_partial` marks theorems that are only part of a true property.

Seeded bugs: `tools/mutate.py` edits a model definition in a scratch copy, rebuilds and records which theorems fail;
`seeded/LOG.jsonl` has one line per attempt, including survivors and what was tightened because of them.

### Conventions

* Floating-point numbers are exact real numbers (Coq `R`). Rounding and overflow are not modelled, except where said
  otherwise: integer overflow of int32 positions (C18, C190), the default dtype of Python-scalar powers (C226-C235), float64
  thresholds that occur as literals in the code, and the Fp area (C273-C278), which
  rounds every operation. Results undefined over the reals (0/0, acos outside [-1, 1], log 0) are `None`,
  an outcome constructor or, in the Wigner and scattering-factor areas, values of a type `fl` of reals extended with the two
  infinities and NaN, with IEEE rules.
* A batched element-wise function is modelled on one element; batching is `map`. Where shape is part of the behaviour
  (broadcasting, reshape, squeeze, boolean masks, gather/scatter), shapes are lists of naturals and tensors are lists or functions of
  their indices, and operations may return an error.
* Exceptions are values (`option` or a constructor naming the Python exception).
* Random draws, tie-breaking of `topk`/`argsort`, uninitialised memory (`torch.empty`), `eigh`, `qr`, `matrix_exp`, the simulator inside
  indexing/refinement, and value of `nan.to(int)` are universally quantified arguments, constrained only by their documented contract
  (stated as hypotheses of the theorem where needed).
* FFTs are the finite Fourier sums they compute. `grid_sample`, `conv2d`, `pad`, `bincount`, `searchsorted` are written out as index
  functions following the torch documentation.
* Space-group translations are integers in units of 1/24.
* In-place updates that escape to the caller are modelled with an explicit memory or by returning the caller's tensor after the call.

## Trusted base

* The kernel of Coq 8.16.1 (including `vm_compute`, used for finite tables: symmetry operators, space groups, coefficient rows), `coqc`.
* Axioms: only axioms of the Coq standard library, listed per theorem below. Coquelicot is used for derivatives and integrals
  (CuboVol, SphereArea, Sht*, NlparMore, Sf*); it adds no axiom.
* The hand translation from Python to Gallina, and the documented behaviour of the torch/numpy primitives named above.
* Not covered: performance, devices, autograd graphs, TorchScript compilation, file formats, plotting, rounding errors (except in the Fp area, C273-C278, and the double-precision counterexamples).


### Assumptions of every theorem

Letters: N = `ClassicalDedekindReals.sig_not_dec`, D = `ClassicalDedekindReals.sig_forall_dec`, F = `FunctionalExtensionality.functional_extensionality_dep`, C = `Classical_Prop.classic`; "-" = closed under the global context. Each theorem is followed by its letters, as printed by `Print Assumptions` (which also stands below the theorems in the sources; `tools/assumptions.sh` prints it again). All four are axioms of the Coq standard library; no other axiom occurs.

* `BlurProps.v`: **CDFN**: c57_kernel_symmetric; **DF**: c57_kernel_size, c109_mask_symmetric, c109_mask_transposes, c109_mask_grows_with_radius, c109_default_reaches_edges, c110_thin_mask_empty_refuted; **DFN**: c57_kernel_normalised, c57_even_size_kept, c57_reflect_accepts, c57_no_overshoot, c57_no_overshoot_zero_padding, c57_flip_equivariant, c108_odd_size_refuted, c109_mask_is_disc
* `BunProps.v`: **CDFN**: c293_euler_error, c293_euler_in_doubles, c294_euler_matrix_in_doubles
* `CcProps.v`: **-**: c200_batches; **CDFN**: c200_complex_signals, c200_real_signals, c200_real_is_complex, c201_fast_is_the_correlation_refuted, c201_every_bandwidth, c201_zonal_partial, c202_complex_bound, c202_real_bound, c202_attained
* `CellProps.v`: **CDFN**: c145_lengths_angles, c145_zero_angle_raises; **DF**: c148_change_of_frame_refuted, c148_orthogonal_frames, c150_average_refuted, c150_off_by_site_count, c150_single_full_site, c151_density, c151_z2_percent, c152_orbit, c153_orbit_distinct_modulo_lattice_refuted, c157_positions_refuted, c157_sites_left_behind_refuted, c157_transpose_is_right; **DFN**: c142_structure_matrix, c142_units, c143_transforms, c143_round_trip, c144_reciprocal_to_cartesian_refuted, c144_cartesian_to_direct_refuted, c144_orthogonal_cells, c145_dot_products, c146_cross_products, c146_cross_defined, c147_cross_direct_to_cartesian_refuted, c147_cross_other_outputs_refuted, c149_impossible_cells_rejected_refuted, c149_flat_cells_rejected, c154_reflections_sound, c154_differences, c154_difference_table, c155_no_zero_reflection_refuted, c156_reflections_complete_refuted, c156_outermost_axial_plane_missing, c156_inner_reflections_present, c156_small_cells_raise, c157_hexagonal_axes_refuted, c157_lengths_in_degrees
* `ClaheProps.v`: **-**: c55_tiles_partition, c55_redistribution_even; **D**: c55_tiles_hold_image_pixels, c55_tile_contents; **DF**: c55_unit_range_images_accepted, c55_out_of_range_rejected, c55_shape, c55_local_tone_curves, c55_output_in_unit_range, c55_single_tile_keeps_order, c55_constant_stays_constant, c55_redistribution_keeps_count, c55_cdf_ends_at_one, c55_contrast_limited, c55_empirical_distribution, c55_blend_by_position
* `CleanProps.v`: **CDFN**: c267_range_kept_refuted, c269_average_of_stored_neighbours; **DF**: c262_energy_rows_refuted, c268_exact_multiples_refuted; **DFN**: c263_clean_succeeds, c264_background_has_no_effect, c265_single_pattern_erased_refuted, c266_size, c266_brightness_and_contrast, c266_constant_stays_constant, c266_overshoot_bounded, c266_mirror, c269_scans_only
* `ColProps.v`: **CDFN**: c238_hsl_color, c239_color_is_symmetric, c240_equivalent_orientations_refuted, c241_dark_hsl_refuted, c242_bytes_determined, c243_bytes_determined_refuted
* `CuboProps.v`: **CDFN**: c30_norm, c30_cube_is_ball, c30_octant, c30_zero_fixed, c30_ho2cu_inverts_cu2ho, c30_cu2ho_inverts_ho2cu, c30_tie_order_irrelevant, c30_equal_volume, c30_cube_symmetry, c30_ax2ho_norm, c30_ax2ho_fills_ball, c30_ax2ho_injective, c30_ho2ax_unit_axis, c30_ho2ax_recovers_axis, c30_ho2ax_half_angle, c30_ho2qu_cu2qu_unit, c30_qu2ho_via_axis_angle, c30_qu2ho_in_ball, c76_negative_real_part_outside_ball, c76_qu2ho_ball_refuted, c76_sign_dependent, c78_argument_unchanged_iff, c78_argument_unchanged_refuted; **DFN**: c77_newton_axis_length, c77_newton_axis_unit_refuted
* `DiffProps.v`: **CDFN**: c171_scattering_matrix_coefficients, c177_without_absorption_refuted, c177_extinct_reflection_refuted, c172_two_excitation_errors_agree; **D**: c204_slabs_compose; **DF**: c174_always_below_95_percent_refuted, c174_next_bin_reaches_goal, c174_shallow_pattern_zero_refuted, c180_weights_after_call, c180_weights_untouched_refuted, c204_wave_per_depth, c204_single_bin; **DFN**: c164_lookup_is_structure_factor, c164_index_in_table, c165_beams_distinct_refuted, c165_others_distinct, c166_sgh_hermitian, c166_sgh_diagonal, c167_emitted_intensity_nonnegative, c167_master_pattern_nonnegative, c167_atoms_at_rest, c168_friedel_without_absorption, c168_friedel_with_absorption, c169_centering_extinctions, c170_wavelength, c170_relativistic, c170_inside_the_crystal, c172_excitation_error_meaning, c172_zero_on_the_ewald_sphere, c172_wavevector, c173_chunk_size_irrelevant, c173_weight_scale_irrelevant, c173_deterministic, c178_several_voltages_refuted, c178_no_absorption_refuted, c178_one_voltage, c175_depth_step_ignored_refuted, c176_dhw_of_inverted_crystal, c176_centrosymmetric_crystals, c176_emission_centrosymmetric, c179_dhw_of_given_crystal_refuted
* `DirProps.v`: **CDFN**: c288_direction_in_doubles, c289_dictionary_direction; **DFN**: c288_direction_error
* `ExpProps.v`: **-**: c42_spec_is_deterministic, c42_orientations_last_set, c42_all_orientations_last_set, c42_coords_last_set, c42_setters_touch_nothing_else, c42_shape_mismatch, c42_valid_calls_succeed, c42_init_ranks, c42_init_spatial_shape, c44_phases_partition, c44_phases_needed, c94_unset_coords_error_refuted, c94_indexed_write_needs_full_write, c98_rank_one_otherwise; **D**: c42_init_layout, c44_single_phase, c44_last_results_win, c44_results_needed, c95_several_phases_refuted, c95_single_nonzero_phase_refuted, c98_one_pattern_phase_rank_refuted, c99_stored_unchanged, c99_default_identity, c99_broadcast_refuted; **DF**: c42_get_patterns_addressed, c43_background_pixel_mean, c43_binned_patterns, c97_caller_data_modified_refuted, c97_same_storage_until_clahe, c97_safe_after_clahe; **DFN**: c43_minmax, c43_minmax_keeps_pixel_order, c43_zeromean, c43_standard, c43_normalise_keeps_shape, c96_failed_normalise_changes_state_refuted
* `FactorProps.v`: **-**: c21_product, c21_small_prime_factors, c21_trial_division, c22_product, c22_small_total, c23_gcd, c23_gcd_up_to_sign, c23_egcd, c23_modular_inverse, c23_sieve, c23_sieve_increasing, c68_factors_prime_refuted, c69_terminates_refuted, c69_trial_division_zero
* `FitProps.v`: **DF**: c51_global_best, c51_lag_is_window, c51_single_batch, c51_batch_size_irrelevant_to_similarity, c120_batch_independent_refuted, c120_index_within_batch, c121_negative_scores, c121_best_entry_refuted, c123_zero_lag, c123_zero_lag_symmetric, c123_asymmetric_refuted, c124_odd_width_refuted, c125_binned_untouched, c125_unbinned_overwritten_refuted, c125_normalised, c125_constant_is_nan, c126_spacing_refuted, c126_unbinned_value, c126_padding_in_binned_pixels; **DFN**: c122_centre_of_window, c122_sign_refuted, c127_unit, c127_nan, c127_dictionary, c127_compose
* `FpProps.v`: **CDFN**: c273_product_in_doubles, c274_rotation_in_doubles, c277_disorientation_cosine, c277_angle_is_a_number, c278_self_disorientation_refuted; **DF**: c275_short_vectors_refuted, c276_rounded_inner_product, c276_float_search_near_exact; **DFN**: c273_product_error, c273_standardised_product, c273_chain_drift, c273_million_products, c274_rotation_error
* `GeomProps.v`: **-**: c93_mask_update; **CDFN**: c39_from_inverts_to, c89_default_tilt_roundtrip_refuted, c89_negative_tilts_flip_sign; **DF**: c90_pixel_centres_refuted, c90_offset, c90_last_pixel; **DFN**: c39_bruker_is_rotation, c39_pattern_centre_meaning, c39_detector_normal, c40_constructed_geometry_is_rigid, c40_detector_to_sample_is_rotation, c40_backproject_inverts_project, c40_origin_on_detector, c40_project_of_backprojection_on_ray, c40_ray_length_irrelevant, c40_projection_is_isometric, c40_untuned_roundtrip, c41_indivisible_binning_raises, c41_grid, c91_initial_se3_vector_used_refuted, c91_masked_off_is_pattern_centre, c92_unit_directions, c92_volumetric_scaling_invisible, c92_undeformed_is_rotated_pixel_ray, c92_grid_count_and_errors, c93_masked_components_ignored
* `HoProps.v`: **CDFN**: c244_ho2ax_recovers_rotation, c244_ax2ho_roundtrip, c244_slow_mode, c245_kikuchipy, c245_emsoft, c245_error_iff_unknown, c246_into_homochoric, c246_into_cubochoric, c247_out_of_homochoric, c247_out_of_cubochoric, c247_quaternion_roundtrips, c248_newton_angle, c249_small_rotations_lost, c249_small_rotations_lost_reference, c249_roundtrip_refuted
* `HrProps.v`: **CDFN**: c271_values_in_range, c271_pixel_of_grain; **DFN**: c271_volume_change_invisible, c271_rotation_part_is_orientation
* `IndexProps.v`: **-**: c114_scan_positions_refuted, c46_leading_component_dropped_refuted, c46_when_correct; **DF**: c47_indexing_is_exhaustive_search, c47_chunk_sizes_irrelevant, c111_short_last_chunk_refuted, c111_short_last_chunk_always, c112_mean_flag_refuted, c112_flag_irrelevant_for_angular, c113_exact_copy_refuted, c113_exact_copy_distances, c113_exact_copy_equal_norms, c115_gain_offset, c115_gain_offset_of_a_run, c46_no_component_kept_refuted, c46_search_in_projection, c46_all_components_lossless, c116_pca_binning_refuted, c95_multi_phase_indexing_refuted
* `KnnProps.v`: **DF**: c16_chunked_search_is_exact, c16_query_pieces_exact, c16_answers_agree, c16_answer_meaning, c17_any_history, c17_query_before_data, c17_short_chunk_rejected, c17_query_count_checked, c17_unknown_metric, c18_indices_wrap_refuted, c18_quantised_euclidean_refuted, c62_repeated_query_refuted, c270_quantised_search_near_exact, c270_clear_winners_are_found
* `KvProps.v`: **-**: c52_exactly, c52_refuted, c52_precedence_refuted, c52_true_class_elsewhere; **CDFN**: c158_square_types, c158_regions, c159_laue_coverage, c160_class_coverage_refuted, c160_where_it_holds, c160_emsoft_type, c161_tetragonal_refuted, c161_others_succeed, c162_unit_refuted, c162_unit_iff, c163_trigonal_coverage_refuted, c203_both_hemispheres, c203_one_hemisphere; **DFN**: c159_cartesian
* `LaueProps.v`: **CDFN**: c08_fz_has_smallest_angle, c11_angle_is_minimal, c11_angle_range, c11_angle_symmetric, c11_angle_zero, c11_left_symmetry_invariant, c11_triangle_inequality, c11_disorientation_attains_the_angle, c11_ori_angle_equals_disori_angle, c11_batch_length_mismatch, c11_batch_elementwise, c61_equivalent_orientations_refuted, c61_two_groups_left_invariance_refuted; **DFN**: c07_tables_are_groups, c07_tables_are_the_laue_rotations, c60_other_ids, c60_invalid_id_raises_refuted, c08_fz_is_equivalent, c08_fz_has_largest_real_part, c08_fz_idempotent, c08_equivalent_inputs_same_real_part, c08_equivalent_inputs_same_result, c08_equivalence_relation, c09_closed_form_agrees_with_brute_force, c09_in_fz_meaning, c09_negative_real_part_differs, c60_closed_form_rejects_other_ids, c10_reduced_is_inside, c12_orbit
* `MiProps.v`: **CDFN**: c181_bound, c181_self, c181_affine, c182_independent_zero_refuted, c182_symmetric_refuted, c182_at_most_entropy_refuted, c183_value, c183_zero_iff_independent, c183_bounds, c183_symmetric, c183_unknown_mode, c184_formulas, c184_in_unit_interval, c184_identical, c185_exclude, c185_dark_pixels_ignored, c186_value_one_refuted, c187_batch, c187_mismatch, c188_entries, c188_peak, c188_normalised, c189_chunked_refuted, c189_constant_marginal_refuted, c189_value_one_refuted, c189_mask_refuted
* `MonteProps.v`: **-**: c131_distinct_cells, c131_counts, c132_good_seeds_stay_good, c133_every_seed_works_refuted; **CDFN**: c53_histogram, c53_exact_without_coincidences, c54_unit_directions, c54_result_is_a_pass, c54_terminates, c128_every_electron_counted_refuted, c129_terminates_refuted, c130_step, c130_counted_energy, c130_condition_needed, c131_in_bounds, c131_masked_only_by_energy_or_depth; **DF**: c134_const, c134_linear, c134_quadratic, c135_error_mode_refuted, c135_uses_next_segment, c136_symmetrise; **DFN**: c54_scatter_unit, c54_scatter_angle, c54_scatter_angle_near_pole
* `MpProps.v`: **-**: c45_exactly_one_group, c45_group_choice; **CDFN**: c45_interpolation_is_pointwise, c45_interpolation_succeeds, c45_first_virtual_binning, c45_cache_bounded, c100_requested_binning_ignored, c100_copy_never_refreshed, c100_stale_binning_refuted, c101_interpolated_in_range, c101_exact_at_pixel_centres, c101_length_irrelevant, c102_north_sees_north, c102_south_sees_south, c102_seam_value, c102_seam_refuted, c104_empty_interpolation_hangs_refuted; **D**: c45_hemispheres_side_by_side; **DF**: c102_binned_seam_refuted, c103_energy_weighted_average, c103_several_sites_refuted; **DFN**: c101_normalised_ranges
* `NlparProps.v`: **-**: c56_self_is_first, c56_edge_neighbours_estimate_noise; **CDFN**: c56_average_of_neighbours, c56_no_overshoot, c56_bias_towards_original, c56_weights_and_bandwidth; **DFN**: c56_defined_when_distinct, c105_identical_neighbours_refuted, c106_dark_border_refuted, c107_radius_zero_refuted
* `OriProps.v`: **CDFN**: c27_qu2ax_roundtrip, c27_ax2qu_roundtrip, c27_ax2om_small_angle_error, c27_om2ax_recovers, c71_negative_real_part_gives_inverse, c71_negative_real_part_refuted, c71_minus_identity_is_nan_refuted, c72_negative_angle_refuted, c73_om2ax_identity_nan_refuted, c73_om2ax_half_turn_nan_refuted, c28_quaternion_roundtrip, c28_near_half_turn, c28_axis_angle_roundtrip, c28_rodrigues_roundtrip, c29_qu2bu_range, c29_quaternion_roundtrip, c29_angles_roundtrip, c74_om_bu_om, c74_ax2bu_same_rotation, c74_bu2ax_same_rotation, c74_ro2bu_same_rotation, c74_om2ro_same_rotation, c75_clifford_identifies_rotation, c75_clifford_even; **DF**: c02_apply_is_qu2om, c25_qu2om_rotation, c25_qu2om_homomorphism, c25_qu2om_even, c25_qu2om_only_sign_lost; **DFN**: c25_qu2om_onto_rotations, c25_qu2om_is_axis_angle_rotation, c26_om2qu_inverts_qu2om, c26_qu2om_inverts_om2qu, c26_om2qu_always_unit, c70_half_turn_roundtrip_iff, c70_half_turn_roundtrip_refuted, c27_ax2qu_is_axis_angle, c27_ax2om_is_rotation, c27_ax2om_agrees_with_quaternion, c72_small_angles_not_orthogonal_refuted, c29_bu2om_is_bunge_matrix, c29_bu2qu_is_inverse_zxz, c29_bu2qu_unit_standard, c31_zh2om_rotation, c31_zh2om_om2zh, c31_zh2om_dependent_nan, c31_zh_quaternion_roundtrip
* `PcaProps.v`: **-**: c64_single_component_refuted; **D**: c20_oja_plus_counters, c20_oja_counter, c65_components_orthonormal, c66_column_is_the_draw; **DF**: c19_streaming_equals_batch, c19_split_does_not_matter, c19_covariance_psd, c63_empty_batch_refuted, c65_transform_inverts, c66_oja_plus_orthonormal_refuted, c67_transform_inverts, c67_residual_orthogonal; **DFN**: c19_correlation, c67_step_size
* `ProgressProps.v`: **-**: c24_transparent, c24_early_stop, c24_bar_width, c24_ends_full
* `QuatProps.v`: **-**: c58_slerp_batch_shape_refuted, c58_slerp_single_shape; **CDFN**: c04_angle_range, c04_angle_is_rotation_angle, c05_slerp_unit_norm, c05_slerp_start, c05_slerp_end, c05_slerp_constant_speed, c05_slerp_defined, c59_slerp_equal_endpoints_refuted, c06_rotate_sets_partial, c06_rotate_sets_antiparallel_refuted; **DF**: c01_prod_is_hamilton, c01_prod_assoc, c01_prod_unit_l, c01_prod_unit_r, c01_conj_right_inverse, c01_conj_left_inverse, c01_conj_reverses_products, c02_apply_is_sandwich, c02_apply_composition, c02_apply_preserves_dot, c02_apply_preserves_handedness, c02_apply_linear, c02_conj_undoes, c02_double_cover, c02_identity_fixes, c03_std_nonneg, c03_std_same_rotation, c03_std_keeps_nonneg, c03_std_idempotent, c03_std_canonical, c03_half_turns_have_two_representatives, c03_prod_std, c04_pos_real, c04_pos_real_abs, c04_triple, c04_axis; **DFN**: c01_norm_multiplicative, c02_apply_is_axis_angle_rotation, c03_norm_unit, c03_norm_direction, c03_norm_fixes_unit, c03_norm_std
* `RefineProps.v`: **-**: c50_zero_iterations_fail; **CDFN**: c48_local_grid, c48_symmetric, c48_other_dimensions_rejected, c49_grid_refinement_never_worse, c49_first_iteration_is_exhaustive, c49_scan_refines_every_pattern, c117_radius_zero, c117_zero_offset_present_refuted, c118_small_grids_do_nothing, c118_better_neighbour_found_refuted, c119_single_pattern_batch_fails, c119_any_batch_size_refuted; **DF**: c50_acceptance_rule, c50_improvements_discarded, c50_accepted_was_worse, c50_improvement_kept_refuted
* `RfzProps.v`: **DF**: c236_every_point_is_sorted_somehow; **DFN**: c236_mutually_inverse, c236_radial, c236_cube_symmetric, c236_other_groups_rejected, c237_cube_into_zone_refuted, c237_directions_exchanged, c237_zone_is_the_tested_one
* `RotProps.v`: **CDFN**: c290_matrix_in_doubles, c291_matrix_of_normalised, c291_right_handed, c291_geometry_hypothesis, c292_matrix_of_product; **DF**: c290_matrix_error
* `RotsProps.v`: **-**: c272_one_batch_dimension, c272_other_shapes_refuted; **CDFN**: c06_nearly_parallel_error, c06_nearly_antiparallel_refuted
* `S2Props.v`: **CDFN**: c15_interior_batch, c15_interior_unique, c15_interior_in_sector, c15_covers, c15_sound, c15_samples_in_sector, c15_fibonacci_sample_complete, c15_ids, c84_cubic_high_planes_refuted, c84_trigonal_pole_refuted, c84_triclinic_equator_refuted, c85_rows_misaligned_refuted; **DFN**: c15_equivalence, c83_s2_equiv_refuted
* `SampProps.v`: **CDFN**: c35_s2_fibonacci_modes, c35_s2_fibonacci_unit, c35_s2_fibonacci_equal_heights, c35_s2_fibonacci_distinct, c35_s2_fibonacci_symmetric, c35_so3_cu_rand, c35_cubochoric_grid, c35_cubochoric_grid_distinct, c36_only_and_all_fz_points, c36_samples_have_smallest_angle, c36_angle_sampler_fz_points, c36_defined_iff_valid_id, c82_same_step_for_all_groups_refuted; **DF**: c35_so3_fibonacci_constant; **DFN**: c35_so3_fibonacci, c35_so3_uniform_quat
* `Se3Props.v`: **-**: c88_flat_batch_ok, c88_batch_shapes_refuted; **CDFN**: c37_small_angle_error, c38_log_of_exp_om, c38_log_of_exp_split, c38_log_of_exp_quat, c38_every_rotation_has_axis, c38_exp_of_log, c38_log_rotation_part, c38_small_angle_error, c86_log_of_exp_small_refuted, c86_every_small_angle_is_shrunk, c86_half_turn_has_no_log, c87_small_exp_quaternion_is_unit_refuted, c88_batch_of_three_refuted; **DFN**: c37_exp_is_rigid, c37_exp_rotates_about_omega, c37_last_row, c37_exp_zero, c37_w_exp_rotates, c37_one_parameter_group, c37_inverse_motion, c37_screw_translation, c37_quaternion_form_agrees, c37_split_form_agrees, c37_v_matrices_inverse, c87_small_exp_is_rotation_refuted
* `SfProps.v`: **CDFN**: c205_exact_for_quadratics, c205_exact_for_cubics_on_uniform_grids, c206_nonnegative_integral_refuted, c207_lvd_real_factor, c208_wk_real_factor, c209_wk_monotone_refuted, c210_too_large, c210_too_large_lvd, c210_nonpositive_rejected_refuted, c211_scalar_sigma_refuted, c212_lvd_voltages_refuted, c213_finite_and_signs, c213_clamp_only_negative, c214_lvd_absorption_nonnegative_refuted, c215_exp1_accurate, c215_exp1_edges, c216_expi_accurate, c216_expi_edges, c216_differences, c217_single_precision_refuted, c218_rih2_refuted, c218_rih2_beyond_200, c219_phonon_forward, c219_grows_with_displacement, c219_total_positive, c219_all_pairs, c220_zero_sigma_refuted, c221_wavelength, c221_three_implementations_agree, c222_structure_factor_wk, c223_structure_factor_hybrid_refuted, c224_entrywise, c224_lvd_entrywise, c224_names, c224_odd_axes, c225_unknown_names_refuted; **DF**: c205_linear, c205_errors, c206_moderate_grids
* `SgProps.v`: **-**: c140_second_setting_refuted, c141_classification_refuted; **DF**: c137_space_groups, c137_generated, c137_tolerance, c138_allowed_reflections, c139_homogeneous_refuted
* `ShtProps.v`: **CDFN**: c195_weights_exist, c195_rows, c195_block_diagonal, c195_edmonds, c196_exact_on_cosines, c196_exact_on_products, c196_orthogonal, c198_isht_synthesis, c198_fsht_analysis, c198_round_trip, c198_exact, c199_agrees_with_complex, c199_isht_synthesis, c199_round_trip, c199_lower; **DFN**: c196_grid, c196_xyz_unit, c196_weights_sum, c197_dct_orthogonal, c197_dst_orthogonal, c197_layers
* `SimProps.v`: **-**: c251_zero_steps_count_nothing; **CDFN**: c252_energy_rows, c256_resample, c257_counts_preserved_refuted, c258_out_of_range_refuted, c259_linear_between_neighbours_refuted, c261_mirrored_trial, c261_same_exit_mirrored, c261_recorded_cell, c279_incidence_angle, c280_depth_scales, c280_same_cells_at_scaled_depth_bins, c280_same_energy_and_direction, c280_two_simulators; **DF**: c250_accumulation, c250_terminates, c251_always_returns_refuted, c251_no_electrons_never_returns, c253_beam_energy_refuted, c254_step_search, c254_override, c255_steps_suffice_refuted, c260_exact_steps; **DFN**: c256_normalised, c256_rejected, c260_edge_count_refuted, c279_beam_direction, c279_untwisted_beam
* `SphereProps.v`: **CDFN**: c32_vector_roundtrip, c32_angle_roundtrip, c33_into_square, c33_point_roundtrip, c33_square_roundtrip, c33_implementations_agree, c33_equal_area, c34_halves, c34_injective, c79_direct_roundtrip_refuted, c79_direct_result, c81_pole_roundtrip_refuted; **DFN**: c32_unit_vectors, c33_onto_hemisphere, c80_unit_iff, c80_unit_refuted, c81_undefined_iff
* `SymProps.v`: **-**: c13_space_group_laue_partial, c13_every_space_group_has_a_class, c13_space_group_laue_refuted, c13_invalid_space_group, c14_point_group_laue, c14_unknown_point_group, c14_agrees_with_space_group
* `TrigProps.v`: **CDFN**: c282_tetragonal_cells_tilted_refuted; **DFN**: c281_second_structure_matrix, c281_when_defined, c282_no_matrix_for_rhombohedral_groups_refuted, c282_rhombohedral_axes_refuted, c282_half_angle_untransposed_is_right
* `UnitProps.v`: **CDFN**: c283_normalise_in_doubles, c283_normalise_std_in_doubles, c285_normalised_disorientation, c286_components_at_most_one, c286_rotation_angle_is_a_number, c287_rotate_by_normalised; **DFN**: c283_normalise_error, c284_tiny_quaternions_refuted
* `WigProps.v`: **-**: c190_position_formula, c190_positions_distinct_and_ordered, c190_positions_dense, c190_int32_exact, c190_int32_limit; **CDFN**: c190_inverse, c191_signed_log_sum, c191_sign_flag, c192_table_below_half_pi, c192_table_above_half_pi, c192_table_at_half_pi, c193_zero_angle_refuted, c193_zero_angle_nan, c194_lookup_all_signs; **DF**: c190_inverse_any_rounding; **DFN**: c194_transpose, c194_negate_both, c194_negate_one_half_pi
* `XnumProps.v`: **-**: c227_same_exponent; **CDFN**: c226_norm_keeps_value, c226_norm_normalises, c226_norm_idempotent, c226_normal_form_unique, c226_trig_powers, c226_half_powers, c226_table_lengths, c227_small_absolute_error, c228_represented_value_refuted, c228_float64_refuted, c229_same_exponent, c229_neighbours_float64, c229_far_exponents, c230_default_type_refuted, c230_zero_swallows_refuted, c231_table_accuracy, c231_orders_up_to_32, c232_relative_accuracy_refuted, c232_default_type_loses_recursion_term, c232_far_exponent_refuted, c233_end_points_refuted, c233_zero_gives_nan, c233_pi_refuted, c235_negative_orders_refuted; **DF**: c227_float64_neighbours, c228_default_type_zero, c228_float64_exponents_merge, c235_reads_another_entry; **DFN**: c234_lookup

## What is modelled

Per source file: functions whose lines are cited by a model file, then what is left out and why.

* `ebsdtorch/crystallography/diffraction.py`: in DiffModel: calc_lambda, calc_sgh, calc_helper_scatter_matrix, calc_sg; in DiffModel, SfModel: calc_helper_bloch_formalism.
* `ebsdtorch/crystallography/ebsd_master.py`: in DiffModel: calc_sg_batched, ebsd_master_pattern.
* `ebsdtorch/crystallography/ebsd_mc.py`: in MonteModel: OpenCLMonteCarlo.__init__, OpenCLMonteCarlo.run_simulation, run_monte_carlo_simulation; in SimModel: MonteCarloSimulator._find_required_steps, MonteCarloSimulator.resample_to_linear; in MonteModel, SimModel: MonteCarloSimulator._interp, MonteCarloSimulator._interpquad, MonteCarloSimulator.run_simulation. Not modelled: MonteCarloSimulator.__init__ (OpenCL context, buffers and kernel launches; the kernel text is modelled).
* `ebsdtorch/crystallography/groups.py`: in SgModel: read_sg_gen_string, matmul_trans_mod, unique_rows, sg_operators.
* `ebsdtorch/crystallography/kvectors.py`: in KvModel: square_to_hemisphere, hexagon_to_hemisphere, kvectors_grid.
* `ebsdtorch/crystallography/scattering_factors/scattering_compare.py`: Not modelled: compare_scattering_factors (plotting script).
* `ebsdtorch/crystallography/scattering_factors/scattering_factors_Hybrid.py`: in SfModel: eval_LVD_fit, evaluate_polynomial, exp1, expi, RIH2_torch, RIH1_torch_where, e_wavelength_eV_to_A, scatter_factor_hybrid.
* `ebsdtorch/crystallography/scattering_factors/scattering_factors_LVD_TCB.py`: in SfModel: eval_LVD_fit, integrand, simpson_composite, e_wavelength_eV_to_A, scatter_factor_LVD.
* `ebsdtorch/crystallography/scattering_factors/scattering_factors_WK.py`: in SfModel: evaluate_polynomial, exp1, expi, RIH2_torch, RIH1_torch_where, e_wavelength_eV_to_A, scatter_factor_WK.
* `ebsdtorch/crystallography/unit_cell.py`: in CellModel: unique_rows, Cell.transform_space, Cell.transform_coordinates, Cell.calc_dot, Cell.calc_auto_dot, Cell.norm_vec, Cell.calc_length, Cell.calc_angle, Cell.calc_cross, Cell.z2_percent, Cell.convert_from_R_to_H, Cell.get_hkl_limits, Cell.get_reflections; in CellModel, KvModel, SgModel, TrigModel: Cell.__init__; in SgModel: Cell.is_g_allowed. Not modelled: Cell.__str__ (text output, device or dtype change, or returns a stored field that is modelled); Cell.to (text output, device or dtype change, or returns a stored field that is modelled); Cell.set_fp_dtype (text output, device or dtype change, or returns a stored field that is modelled); Cell.get_density (text output, device or dtype change, or returns a stored field that is modelled); Cell.get_average_atomic_number (text output, device or dtype change, or returns a stored field that is modelled); Cell.get_average_atomic_weight (text output, device or dtype change, or returns a stored field that is modelled); Cell.get_volume (text output, device or dtype change, or returns a stored field that is modelled); Cell.get_direct_metric_tensor (text output, device or dtype change, or returns a stored field that is modelled); Cell.get_reciprocal_metric_tensor (text output, device or dtype change, or returns a stored field that is modelled); Cell.get_direct_structure_matrix (text output, device or dtype change, or returns a stored field that is modelled); Cell.get_reciprocal_structure_matrix (text output, device or dtype change, or returns a stored field that is modelled).
* `ebsdtorch/ebsd/experiment_pats.py`: in ExpModel: ExperimentPatterns.__init__, ExperimentPatterns.set_spatial_coords, ExperimentPatterns.get_spatial_coords, ExperimentPatterns.get_orientations, ExperimentPatterns.set_inv_f_matrix, ExperimentPatterns.get_inv_f_matrix, ExperimentPatterns.subtract_overall_background, ExperimentPatterns.normalize_per_pattern, ExperimentPatterns.get_patterns, ExperimentPatterns.get_indices_per_phase, ExperimentPatterns.set_raw_indexing_results, ExperimentPatterns.combine_indexing_results; in CleanModel, ExpModel: ExperimentPatterns.set_orientations, ExperimentPatterns.contrast_enhance_clahe; in CleanModel: ExperimentPatterns.standard_clean, ExperimentPatterns.do_nlpar.
* `ebsdtorch/ebsd/fitting.py`: in GeomModel (same formulas): bruker_geometries_to_SE3, bruker_geometry_from_SE3; in FitModel: get_3D_pixel_coords, get_3D_pixel_coords_with_periphery, spatial_fft_pc_fitter; in DirModel, FitModel: apply_geometry, generate_dictionary_coords.
* `ebsdtorch/ebsd/geometry.py`: in GeomModel: bruker_geometry_to_SE3, bruker_geometry_from_SE3, EBSDGeometry.__init__, EBSDGeometry.set_optimizable_se3_params, EBSDGeometry.get_detector2sample, EBSDGeometry.project2sample, EBSDGeometry.backproject2detector, EBSDGeometry.get_coords_sample_frame.
* `ebsdtorch/ebsd/indexing.py`: in IndexModel: dictionary_index_orientations, pca_dictionary_index_orientations.
* `ebsdtorch/ebsd/master_pattern.py`: in MpModel: MasterPattern.__init__, MasterPattern.bin, MasterPattern.normalize, MasterPattern.interpolate, MasterPattern.apply_clahe.
* `ebsdtorch/ebsd/project_hrebsd.py`: in GeomModel: hrebsd_coords; in MpModel: project_hrebsd.
* `ebsdtorch/ebsd/refining.py`: in RefineModel: get_local_orientation_grid, orientation_grid_refinement, orientation_grad_refinement.
* `ebsdtorch/harmonics/sht.py`: in ShtModel: grid_DriscollHealy, normCm, rnormCm, dltWeightsDH, idctMatrix, idstMatrix, weightedDCST.__init__, weightedDCST.reset_parameters, DLT.__init__, DLT.fdlt, DLT.idlt, CSHT.fsht, CSHT.isht, RDLT.__init__, RDLT.fdlt, RDLT.idlt, RSHT.fsht, RSHT.isht, theta_phi_to_xyz; in ShtModel (weights and grids stored by the constructor): CSHT.__init__, RSHT.__init__.
* `ebsdtorch/harmonics/sht_cc.py`: in CcModel: rs2cc_, rs2cc_fast_, cs2cc_.
* `ebsdtorch/harmonics/wigner_d_logspace.py`: in WigModel: signedlogsumexp, log_powers_of_half, log_powers_trig_half_beta, index_from_coords, coords_from_index, wigner_d_lt_half_pi, wigner_d_eq_half_pi, wigner_d_gt_half_pi, read_lmn_wigner_d_half_pi_table, read_mn_wigner_d_half_pi_table; in ShtModel: csht_weights_half_pi, rsht_weights_half_pi.
* `ebsdtorch/harmonics/wigner_d_xnum.py`: in XnumModel: xnum_norm, xnum_to_fp, xnum_sum, trig_powers_xnum, half_powers_xnum, wigner_d_xnum, retrieve_wigner_d; in WigModel (same expression): index_from_coords.
* `ebsdtorch/io/read_master_pattern.py`: in MpModel: read_master_pattern.
* `ebsdtorch/lie_algebra/se3.py`: in Se3Model: skew, w_exp, w_exp_vmat, w_to_v, w_to_v_inv, se3_exp_map_quat, se3_log_map_quat, se3_exp_map_om, se3_exp_map_split, se3_log_map_om, se3_log_map_split.
* `ebsdtorch/preprocessing/clahe.py`: in ClaheModel: clahe_grayscale.
* `ebsdtorch/preprocessing/nlpar.py`: in NlparModel: nlpar.
* `ebsdtorch/preprocessing/radial_mask.py`: in BlurModel: get_radial_mask.
* `ebsdtorch/preprocessing/resampling.py`: in BlurModel: GaussianBlur2d.forward, GaussianBlur2d._get_gaussian_kernel, GaussianBlur2d._compute_padding, GaussianBlur2d._crop_padding; in CleanModel: BlurAndDownsample.__init__, BlurAndDownsample.forward. Not modelled: GaussianBlur2d.__init__ (stores its arguments; text output); GaussianBlur2d.__repr__ (stores its arguments; text output).
* `ebsdtorch/s2_and_so3/laue_fz_misori.py`: in LaueModel: misori_to_fz_laue, disorientation_naive; in FpModel, LaueModel: disori_angle_laue.
* `ebsdtorch/s2_and_so3/laue_fz_ori.py`: in LaueModel: ori_to_fz_laue, ori_equiv_laue, ori_in_fz_laue, ori_angle_laue, disorientation; in LaueModel, RfzModel: ori_in_fz_laue_brute; in ColModel, RfzModel: cube_to_rfz; in RfzModel: rfz_to_cube; in FpModel, LaueModel: disori_angle_laue; in LaueModel, SampModel: sample_ori_fz_laue, sample_ori_fz_laue_angle; in ColModel: ori_color_laue.
* `ebsdtorch/s2_and_so3/laue_fz_s2.py`: in S2Model: s2_in_fz_laue, s2_to_fz_laue, s2_equiv_laue, sample_s2_fz_laue_fibonacci, sample_s2_fz_laue_rosca.
* `ebsdtorch/s2_and_so3/laue_generators.py`: in LaueModel: get_laue_mult, laue_elements.
* `ebsdtorch/s2_and_so3/orientations.py`: in CuboModel: qu2ho, cu2ho, ho2cu, ax2ho, cu2qu, ho2qu; in OriModel: om2qu, om2ax, ax2om, ax2ro, ro2ax, ax2qu, qu2ax, qu2ro, qu2bu, qu2cl, zh2om, om2zh, zh2qu, qu2zh, ro2qu, ro2om, om2ro, bu2ax, bu2ro, om2bu, ax2bu, ro2bu; in CuboModel, HoModel: ho2ax, ho2ax_newton, qu2cu; in HoModel: ho2ax_reference, om2ho, ax2cu, ro2cu, ro2ho, cu2ax, cu2om, cu2ro, ho2om, ho2ro, om2cu, bu2cu, bu2ho, cu2bu, ho2bu; in BunModel, OriModel: bu2qu, bu2om; in OriModel, RotModel: qu2om.
* `ebsdtorch/s2_and_so3/quaternions.py`: in QuatModel: qu_std, qu_slerp, qu_prod_axis, qu_conj, qu_angle; in QuatModel, UnitModel: qu_norm, qu_norm_std; in FpModel, QuatModel: qu_prod_raw, qu_prod, qu_prod_pos_real, qu_triple_prod_pos_real, qu_apply; in QuatModel, RotsModel: quaternion_rotate_sets_sphere.
* `ebsdtorch/s2_and_so3/sampling.py`: in SampModel: s2_fibonacci, so3_fibonacci, so3_cu_rand, so3_uniform_quat, so3_cubochoric_grid.
* `ebsdtorch/s2_and_so3/sphere.py`: in SphereModel: theta_phi_to_xyz, xyz_to_theta_phi, rosca_lambert, inv_rosca_lambert, rosca_lambert_side_by_side.
* `ebsdtorch/simulation/monte_carlo.py`: in SphereModel (copy of sphere.py): rosca_lambert; in MonteModel: bse_sim_mc.
* `ebsdtorch/utils/factorize.py`: in FactorModel: FactorECM, FactorECM.factor_trial_division, FactorECM.is_probably_prime_fermat, FactorECM.gen_primes_sieve_of_eratosthenes, FactorECM.gcd, FactorECM.egcd, FactorECM.modular_inverse, FactorECM.elliptic_curve_add, FactorECM.elliptic_curve_mul, FactorECM.factor_ecm, FactorECM.factor_ecm.next_factor_ecm, FactorECM.factor_ecm.prime_power, nearly_square_factors.
* `ebsdtorch/utils/knn.py`: in KnnModel (the quantised product is an arbitrary function): LinearLayer.__init__, LinearLayer.forward, quant_model_data, quant_model_query; in KnnModel: topk_quantized_data, ChunkedKNN.__init__, ChunkedKNN.set_data_chunk, ChunkedKNN.query_all, ChunkedKNN.query_chunk, ChunkedKNN.retrieve_topk; in FpModel, KnnModel: knn_batch. Not modelled: topk_quantized_query (not called by the library).
* `ebsdtorch/utils/mutual_information.py`: in MiModel: mutual_information, binned_nmi, batch_binned_nmi, cmif.
* `ebsdtorch/utils/pca_covmat.py`: in PcaModel: update_covmat, OnlineCovMatrix.__init__, OnlineCovMatrix.forward, OnlineCovMatrix.get_covmat, OnlineCovMatrix.get_eigenvectors.
* `ebsdtorch/utils/pca_online.py`: in PcaModel: KrasulinaPCA.__init__, KrasulinaPCA.forward, KrasulinaPCA.get_components, KrasulinaPCA.transform, KrasulinaPCA.inverse_transform, OjaPCA.__init__, OjaPCA.forward, OjaPCA.get_components, OjaPCA.transform, OjaPCA.inverse_transform.
* `ebsdtorch/utils/progressbar.py`: in ProgressModel: progressbar.
* `ebsdtorch/utils/rosca_lambert.py`: in SphereModel: square_to_hemisphere, square_to_hemisphere_v2, hexagon_to_hemisphere.
* `ebsdtorch/utils/symmetry_classes.py`: in SymModel: space_group_to_laue, point_group_to_laue.

## Areas and proof techniques

* **Quat, Rots, Ori, Se3, Geom** – quaternions, conversions, rigid motions, detector geometry: algebra over R under unit-norm hypotheses,
  trigonometric identities, explicit atan2/acos models; Taylor bounds for small-angle branches.
* **Cubo, Sphere** – homochoric, cubochoric and Rosca-Lambert maps: piecewise inverse functions; equal volume/area by computing the
  Jacobian determinant with Coquelicot derivatives.
* **Laue, Sym, S2, Samp** – symmetry tables as exact surds, group axioms by computation and reflection; argmax folds; closed-form
  fundamental zones against brute force; samplers as functions of index and draw.
* **Knn, Pca, Index, Refine, Fit** – chunk loops as folds with "best so far" invariants, oracle `topk`, oracle simulators, streaming
  covariance by induction over batches.
* **Exp, Mp, Hr, Progress** – state machines over all call sequences, refinement to a last-write-wins specification.
* **Clahe, Nlpar, Blur, Mi** – histograms and convolutions as sums, convexity, Gibbs' inequality, finite Fourier sums.
* **Factor** – number theory over Z with fuel and random oracle.
* **Monte** – electron loop with arbitrary draws; 32-bit words for the generator; interpolation and symmetrisation.
* **Sg, Cell, Kv, Diff** – space groups over Z, lattice geometry, reflections, k-vector samplings, dynamical diffraction: computation
  for all 230 groups, metric-tensor algebra, complex sums.
* **Wig, Sht, Cc, Xnum** – Wigner's explicit sum satisfies the recursion and symmetries; table loops by an invariant over flat positions;
  Driscoll-Healy quadrature by closed finite sums; spherical harmonic round trips and correlation volumes.
* **Sf** – scattering factors: exact rational evaluation per table row, exponential integrals by differential error bounds, NaN-extended
  arithmetic, tensor shapes.
* **Rfz, Col** – Rodrigues-space zones and orientation colours: closed-form maps, case analysis over the Laue group's sectors.
* **Ho** – homochoric inverses: certified polynomial bounds on the fitted series, Newton and fixed-point iteration estimates.
* **Sim** – the Monte Carlo class: loop over launches with arbitrary results, step search, resampling; mirror symmetry by induction on the
  scattering steps; counterexamples in nearest doubles.
* **Clean** – standard cleaning, NLPAR on scans and downsampling, composed from the Exp, Clahe, Nlpar and Blur theorems.
* **Fp** – floating-point versions of the quaternion product, point rotation, angular kNN and the disorientation angle: every operation rounded by an arbitrary relation (small relative and absolute error, or rounding to a nearest double); Flocq's rounding is used to relate the two.
* **Trig** – the second direct structure matrix of Cell: rotations from right triangles, half-angle identities.
* **Unit** – quaternion normalisation in floating point, on top of Fp, and its composition with the float disorientation.
* **Dir** – detector directions (apply_geometry, generate_dictionary_coords) in floating point, on top of Fp and Unit; matrix rows and norms summed in any order.
* **Rot** – qu2om in floating point and its composition with the float normalisation; the sum of squares in any order.
* **Bun** – bu2qu and bu2om in floating point; cosine and sine as relations with a bounded error, since library functions are not correctly rounded.


## Properties

For each property: what is modelled and how it is proved. Status "proved": the statement of properties.jsonl is a theorem; "partial": the code violates it (theorems with suffix `_refuted` exhibit the violation, the finding is given) or only part is proved.

* **C01** Quaternion product is the Hamilton product — model: `QuatModel.v`; method: quaternion product on 4-tuples of reals, verbatim; ring identities against the Hamilton table. proved, 8 theorems in `QuatProps.v`.
* **C02** qu_apply is a rotation action on points — model: `OriModel.v`, `QuatModel.v`; method: qu_apply verbatim; norm, dot product and composition identities by ring under |q| = 1. proved, 10 theorems in `OriProps.v`, `QuatProps.v`.
* **C03** Standardisation picks the non-negative real part representative of the same rotation — model: `QuatModel.v`; method: case split on the sign of the real part; rotation equality through qu_apply. proved, 11 theorems in `QuatProps.v`.
* **C04** Real-part-only shortcuts equal the full product — model: `QuatModel.v`; method: shortcut and full product compared by ring; angle through acos on [0, 1]. proved, 6 theorems in `QuatProps.v`.
* **C05** Slerp interpolates at constant speed on the unit sphere — model: `QuatModel.v`; method: single-element slerp over R; sin addition formulas, constant angular speed proved through the spherical parametrisation. proved, 5 theorems in `QuatProps.v`.
* **C06** quaternion_rotate_sets_sphere carries start to finish — model: `QuatModel.v`, `RotsModel.v`; method: cross-product construction on triples; unit norm and image of the start vector by algebra, error branch for antiparallel input. partial, 4 theorems in `QuatProps.v`, `RotsProps.v`. Finding: Holds when |s.f| < 0.999999 (proved as c06_rotate_sets_partial). Closer directions get the identity: nearly parallel ones are missed by at most sqrt(2e-6), nearly antiparallel ones by almost the diameter, and -s is never reached from s (refuted with every unit s as witness).
* **C07** The Laue operator tables are groups — model: `LaueModel.v`; method: the 11 operator tables with entries in Q(sqrt 2, sqrt 3) as exact terms; closure, inverses and distinctness decided by computation and reflected into R. proved, 2 theorems in `LaueProps.v`.
* **C08** Reduction to the fundamental zone returns the symmetry-equivalent orientation of smallest angle — model: `LaueModel.v`; method: argmax over the list of products; optimality by induction over the table, equivalence from the group law (C07). proved, 7 theorems in `LaueProps.v`.
* **C09** The closed-form fundamental-zone test agrees with brute force — model: `LaueModel.v`; method: closed-form inequalities per group against the list of all operators; both directions by linear/quadratic real arithmetic per operator. proved, 3 theorems in `LaueProps.v`.
* **C10** Reduced orientations are inside the fundamental zone — model: `LaueModel.v`; method: composition of C08 and C09. proved, 1 theorem in `LaueProps.v`.
* **C11** Disorientation is the smallest misorientation over both symmetry groups — model: `LaueModel.v`; method: maximum over the double list of operators; invariance lemmas from the group law. proved, 10 theorems in `LaueProps.v`.
* **C12** ori_equiv_laue enumerates the whole orbit — model: `LaueModel.v`; method: map over the table; completeness and multiplicity from distinctness of the operators. proved, 1 theorem in `LaueProps.v`.
* **C13** Space groups are assigned their Laue class — model: `SymModel.v`; method: integer case analysis against an independent table of space-group ranges, for all integers. partial, 4 theorems in `SymProps.v`. Finding: Proved for every space group except 194 and 149-155; refuted there: 194 (P6_3/mmc) is sent to m-3 (10) instead of 6/mmm (9) and the 32 groups 149-155 to -3 (6) instead of -3m (7). Numbers outside 1..230 raise ValueError (proved).
* **C14** Point groups are assigned their Laue class — model: `SymModel.v`; method: string table against the crystallographic classes. proved, 3 theorems in `SymProps.v`.
* **C15** Direction symmetry reduction returns the unique representative — model: `S2Model.v`; method: per-group region predicates and shape model; existence and uniqueness of representatives. proved, 9 theorems in `S2Props.v`.
* **C16** Chunked nearest-neighbour search equals search over the whole data set — model: `KnnModel.v`; method: top-k oracle quantified over all tie-breakings; the chunk loop is a fold whose invariant is 'sorted k best of the rows seen so far'. proved, 4 theorems in `KnnProps.v`.
* **C17** k-NN call protocol — model: `KnnModel.v`; method: state machine of constructor/query/reset calls; invariant over all call sequences. proved, 5 theorems in `KnnProps.v`.
* **C18** k-NN indices and quantised search stay valid for every size and metric — model: `KnnModel.v`; method: int32 wrap-around and quantisation as integer functions; bounds for every size. partial, 2 theorems in `KnnProps.v`. Finding: REFUTED twice: data_size >= 2^31 selects int32 storage (the condition is inverted), so query_chunk wraps indices to negative numbers; the quantised CPU path always maximises the inner product, so with the Euclidean metric it returns rows that are not nearest. For data_size < 2^31 and no quantisation C16/C17 prove the indices correct.
* **C19** Streaming covariance equals batch covariance — model: `PcaModel.v`; method: induction over batches: mean and scatter matrix of the concatenation. proved, 4 theorems in `PcaProps.v`.
* **C20** Oja++ bookkeeping stays in range — model: `PcaModel.v`; method: counter state machine over all configurations and batch sequences. proved, 2 theorems in `PcaProps.v`.
* **C21** Integer factorisation multiplies back to the input — model: `FactorModel.v`; method: fuelled factoriser with the random generator as an oracle argument; product invariant for every draw. proved, 3 theorems in `FactorProps.v`. For n >= 65536 the statement is conditional on FactorECM returning (its termination depends on random draws).
* **C22** nearly_square_factors splits n exactly — model: `FactorModel.v`; method: divisor search as a fold; n = a * b and a <= b. proved, 2 theorems in `FactorProps.v`.
* **C23** Number-theory helpers are correct — model: `FactorModel.v`; method: Jacobi symbol, sieve, gcd and powers proved against their textbook definitions over Z. proved, 6 theorems in `FactorProps.v`.
* **C24** Progress bar is transparent — model: `ProgressModel.v`; method: iterator as list recursion; every element handed on once, in order, for every exception point. proved, 4 theorems in `ProgressProps.v`. Timing text on the bar is not modelled.
* **C25** qu2om produces proper rotation matrices and is a homomorphism — model: `OriModel.v`; method: matrix entries as polynomials in the quaternion; orthogonality, determinant and homomorphism by ring under |q| = 1; surjectivity constructed from the trace cases. proved, 6 theorems in `OriProps.v`.
* **C26** om2qu inverts qu2om — model: `OriModel.v`; method: four-branch om2qu; sign and copysign cases, sum-of-squares identities for each branch. proved, 3 theorems in `OriProps.v`.
* **C27** Axis-angle conversion round-trips and preserves the rotation — model: `OriModel.v`; method: atan2/acos model of angle recovery; half-angle identities, bound for the small-angle branch by Taylor estimates. proved, 7 theorems in `OriProps.v`.
* **C28** Rodrigues conversion round-trips — model: `OriModel.v`; method: tan/atan half-angle composition; the branch at half turns handled with its threshold. proved, 4 theorems in `OriProps.v`.
* **C29** Bunge Euler angle conversion is consistent — model: `OriModel.v`; method: product of three elementary rotations; atan2 recovery with all degenerate cases of the middle angle. proved, 6 theorems in `OriProps.v`.
* **C30** Homochoric and cubochoric maps — model: `CuboModel.v`; method: piecewise maps on the cube's pyramids; inverse functions, order of ties, volume preservation by a Jacobian determinant (Coquelicot derivatives). proved, 18 theorems in `CuboProps.v`. Exact-real model; the polynomial angle fit of ho2ax is modelled but its accuracy (angle(ho2ax(ax2ho)) close to the angle) is not claimed. Equal volume is proved in the open sector 0<x<y<z and transported by the cube symmetries.
* **C31** Six-dimensional (Zhou) representation always gives a rotation — model: `OriModel.v`; method: Gram-Schmidt on two vectors; orthonormality by algebra, NaN exactly for dependent columns. proved, 4 theorems in `OriProps.v`.
* **C32** Spherical coordinates — model: `SphereModel.v`; method: atan2/acos model; periodicity and range lemmas. proved, 3 theorems in `SphereProps.v`.
* **C33** Rosca-Lambert projection is an equal-area bijection between hemisphere and square — model: `SphereModel.v`; method: square/hemisphere maps per triangle; inverse proofs and equal area through the Jacobian (Coquelicot). proved, 6 theorems in `SphereProps.v`.
* **C34** Side-by-side Rosca-Lambert keeps hemispheres apart — model: `SphereModel.v`; method: two half-squares side by side; injectivity by case split on the sign of z. proved, 2 theorems in `SphereProps.v`.
* **C35** Sphere and rotation samplers return valid, distinct points for every size, mode and draw — model: `SampModel.v`; method: lattice formulas as functions of the index; unit norms, distinctness (irrational rotation argument where needed) and ranges for every size and random draw. proved, 11 theorems in `SampProps.v`.
* **C36** Fundamental-zone sampling returns exactly the fundamental-zone points of its grid — model: `SampModel.v`; method: filter over the generated grid; membership both ways using C08-C10. proved, 4 theorems in `SampProps.v`.
* **C37** The SE(3) exponential gives rigid motions — model: `Se3Model.v`; method: Rodrigues formula on skew matrices; one-parameter group law by trigonometric identities, Taylor bounds for the small-angle branch. proved, 12 theorems in `Se3Props.v`.
* **C38** SE(3) logarithm and exponential are inverse — model: `Se3Model.v`; method: explicit inverse of the V matrix; axis recovery away from the half turn. proved, 7 theorems in `Se3Props.v`.
* **C39** Bruker geometry conversion is a rigid motion and round-trips — model: `GeomModel.v`; method: composition of elementary rotations and a shift; inverse formulas with the tilt signs as parameters. proved, 4 theorems in `GeomProps.v`.
* **C40** Detector projection and back-projection are inverse — model: `GeomModel.v`; method: line/plane intersection; inverse on the detector plane, defined iff the ray meets the plane. proved, 8 theorems in `GeomProps.v`.
* **C41** Detector pixel grid — model: `GeomModel.v`; method: index arithmetic of the pixel grid over nat and R for every size and binning. proved, 2 theorems in `GeomProps.v`.
* **C42** Pattern container state machine — model: `ExpModel.v`; method: state machine over all sequences of setter/getter calls, refined against a last-write-wins specification. proved, 11 theorems in `ExpProps.v`.
* **C43** Pattern normalisation and binning — model: `ExpModel.v`; method: folds for min, max, mean, standard deviation; order and range lemmas by induction over pixels. proved, 7 theorems in `ExpProps.v`.
* **C44** Indexing results of a single phase and phase lists — model: `ExpModel.v`; method: index bookkeeping of the single-phase combination; partition lemma. proved, 5 theorems in `ExpProps.v`.
* **C45** Master pattern construction and interpolation — model: `MpModel.v`; method: constructor with both optional arguments; bilinear grid_sample model with border padding. proved, 7 theorems in `MpProps.v`.
* **C46** PCA dictionary indexing keeps the leading components — model: `IndexModel.v`; method: column order of the eigenvectors modelled (ascending eigh); which columns the slice keeps is computed for every k. partial, 5 theorems in `IndexProps.v`. Finding: Violated by the code: proved as a refutation.
* **C47** Dictionary indexing is an exhaustive search, whatever the chunk sizes — model: `IndexModel.v`; method: the chunk loop composed with the k-NN model (C16); equality with the search over the whole dictionary. proved, 2 theorems in `IndexProps.v`.
* **C48** Local orientation grids — model: `RefineModel.v`; method: cartesian product of offsets; count, symmetry and membership by induction. proved, 3 theorems in `RefineProps.v`.
* **C49** Grid refinement never makes the match worse — model: `RefineModel.v`; method: monotone best-so-far invariant of the iteration, oracle similarity. proved, 3 theorems in `RefineProps.v`.
* **C50** Gradient refinement only accepts improvements — model: `RefineModel.v`; method: one round of the optimiser with oracle gradients; acceptance test modelled verbatim. partial, 5 theorems in `RefineProps.v`. Finding: REFUTED: line 357 stores the negated initial similarity and line 383 accepts when the final similarity is below it, so from a non-negative similarity on every improvement is discarded and every accepted result was evaluated as worse and negative (c50_improvements_discarded, c50_accepted_was_worse, c50_improvement_kept_refuted); n_iter=0 fails.  The optimiser step is an arbitrary function.
* **C51** Pattern-centre fitter searches the whole grid — model: `FitModel.v`; method: maximum over dictionary and windows as a nested fold; batch-independence of the similarity. proved, 4 theorems in `FitProps.v`. The FFT correlation is modelled as circular cross-correlation; the simulator is an arbitrary function.
* **C52** k-vector sampling type follows the space group — model: `KvModel.v`; method: integer case analysis of the point-group if-chain for all 230 groups. partial, 4 theorems in `KvProps.v`. Finding: REFUTED: agrees with EMsoft exactly for the groups of c52_exactly (88 of 230). Causes: the cell reports the next crystal class for every group that is not the first of its class (C139), and Python chains '==' / '<=' / '|' so 148-155 and 157 fall through to type 16 even with the right class (c52_precedence_refuted). Group 194 (P6_3/mmc) is sampled as monoclinic 2.
* **C53** Monte-Carlo histogram never overcounts — model: `MonteModel.v`; method: scatter-add with index collisions as an oracle; bound by induction over electrons. proved, 2 theorems in `MonteProps.v`.
* **C54** Monte-Carlo directions stay unit vectors and the run ends — model: `MonteModel.v`; method: direction update formula with the near-pole branch; unit norm, termination measure under the energy-loss condition. proved, 6 theorems in `MonteProps.v`.
* **C55** CLAHE is a bounded, locally order-preserving, contrast-limited remapping — model: `ClaheModel.v`; method: integer histograms, clipping and redistribution folds, cumulative tone curves, bilinear mixing; bounds by induction. proved, 16 theorems in `ClaheProps.v`.
* **C56** NLPAR output is a weighted average of neighbours — model: `NlparModel.v`; method: weights as exponentials of distances; convex-combination argument, outcome type for 0/0. proved, 7 theorems in `NlparProps.v`.
* **C57** Gaussian blur — model: `BlurModel.v`; method: separable kernel with reflect/zero padding index functions; normalisation and symmetry by sums. proved, 8 theorems in `BlurProps.v`.
* **C58** qu_slerp keeps the batch shape — model: `QuatModel.v`; method: broadcasting of shape lists in slerp; one batch shape contradicts the claim. partial, 2 theorems in `QuatProps.v`. Finding: REFUTED: a batch of n != 1 quaternions comes back with shape (n,4,n); only a single quaternion or a batch of one keeps its shape.
* **C59** qu_slerp of equal endpoints returns the endpoint — model: `QuatModel.v`; method: 0/0 at zero angle in the slerp formula. partial, 1 theorem in `QuatProps.v`. Finding: REFUTED: equal endpoints divide by sin(0) = 0 (NaN) for every t.
* **C60** Laue ids outside 1..11 are rejected — model: `LaueModel.v`; method: if-chain over ids for all integers. partial, 3 theorems in `LaueProps.v`. Finding: REFUTED for laue_elements/get_laue_mult (and everything built on them): ids -10..0 are accepted through negative indexing (0 is treated as cubic). ori_in_fz_laue does reject every id outside 1..11; ids <= -11 and >= 12 fail everywhere.
* **C61** Disorientation is blind to the choice of symmetry-equivalent representative — model: `LaueModel.v`; method: witness orientations with exact surd coordinates. partial, 2 theorems in `LaueProps.v`. Finding: REFUTED: ori_equiv_laue and ori_to_fz_laue multiply symmetry operators on the right of the orientation, disori_angle_laue forms q1 q2^-1 and multiplies on both outer sides, so right-equivalent orientations are reported up to pi apart; with two different groups the operators are also applied on swapped sides.
* **C62** A data row is listed at most once among the neighbours — model: `KnnModel.v`; method: two consecutive queries of the state machine. partial, 1 theorem in `KnnProps.v`. Finding: REFUTED: k=2, two data rows, the same query sent twice to the same chunk: both neighbours are row 0, for every torch.topk.
* **C63** An empty batch leaves the streaming covariance unchanged — model: `PcaModel.v`; method: division by the number of rows of an empty batch. partial, 1 theorem in `PcaProps.v`. Finding: REFUTED: an empty batch has mean 0/0 and all buffers become NaN for good; the theorem shows it for every history containing an empty batch.
* **C64** Oja++ accepts a single component — model: `PcaModel.v`; method: shape produced by squeeze for one component. partial, 1 theorem in `PcaProps.v`. Finding: REFUTED: n_components // 2 = 0 and the first update divides by zero, for every input.
* **C65** Oja components are orthonormal and transform inverts inverse_transform — model: `PcaModel.v`; method: QR oracle with orthonormal columns; projector algebra. proved, 2 theorems in `PcaProps.v`.
* **C66** Oja++ components are orthonormal — model: `PcaModel.v`; method: column update outside the QR branch. partial, 2 theorems in `PcaProps.v`. Finding: REFUTED: the freshly initialised column is the raw random draw after the QR step; a zero draw (or any non-unit one) breaks orthonormality.
* **C67** Krasulina PCA projection — model: `PcaModel.v`; method: projection identities over R^n as lists. proved, 3 theorems in `PcaProps.v`.
* **C68** Every factor returned by FactorECM is prime — model: `FactorModel.v`; method: an input for which the perfect-power/ECM path returns a composite for every draw. partial, 1 theorem in `FactorProps.v`. Finding: REFUTED: 75361 = 11*13*17*31 is a Carmichael number; whenever the 32 draws are coprime to it (e.g. all equal to 2) it is returned as its own factor.
* **C69** FactorECM returns for every non-negative integer — model: `FactorModel.v`; method: zero makes trial division loop: no fuel suffices. partial, 2 theorems in `FactorProps.v`. Finding: REFUTED: for n = 0 the loop removing factors of two never ends (every step budget is exhausted). For 1 <= n < 65536 termination is proved (c21_small_prime_factors); above, termination depends on the random draws and is not claimed.
* **C70** om2qu is correct for every 180 degree rotation — model: `OriModel.v`; method: half-turn branch: signs lost; exact iff-condition. partial, 2 theorems in `OriProps.v`. Finding: REFUTED: the copysign step uses antisymmetric parts that vanish at 180 degrees, so the axis comes back as (|x|,|y|,|z|). Exact characterisation proved: the round trip works iff the axis components all have one sign.
* **C71** qu2ax preserves the rotation of quaternions with negative real part — model: `OriModel.v`; method: acos branch for negative real part. partial, 3 theorems in `OriProps.v`. Finding: REFUTED: for -1 < w < 0 the result is the inverse rotation (the axis is negated but the angle 2 acos w is kept); for w = -1 it is NaN. C27 covers w >= 0.
* **C72** ax2om gives a rotation matrix for every angle — model: `OriModel.v`; method: first-order branch: squared norm exceeds one. partial, 2 theorems in `OriProps.v`. Finding: REFUTED: every angle in (0, 0.05] gives a matrix that is not exactly orthogonal (within 3e-9, C27), and every angle <= 0.05, including large negative ones, uses the small-angle series: axis z, angle -2 gives m00 = -1/3.
* **C73** om2ax is defined for every rotation — model: `OriModel.v`; method: 0/0 in the axis normalisation at identity and half turns. partial, 2 theorems in `OriProps.v`. Finding: REFUTED: the identity and all half-turns divide by a zero norm (NaN).
* **C74** Derived conversions describe the same rotation — model: `OriModel.v`; method: compositions of the modelled conversions; equality of rotations through C25-C29. proved, 5 theorems in `OriProps.v`.
* **C75** Clifford-torus coordinates identify the rotation — model: `OriModel.v`; method: angle doubling identities; injectivity modulo sign. proved, 2 theorems in `OriProps.v`.
* **C76** qu2ho maps every unit quaternion into the homochoric ball — model: `CuboModel.v`; method: acos range for negative real part exceeds pi. partial, 3 theorems in `CuboProps.v`. Finding: Violated by the code: every unit quaternion with -1 < w < 0 leaves the ball, and q, -q get different coordinates; c30_qu2ho_in_ball is the part that holds.
* **C77** ho2ax_newton returns unit axes — model: `CuboModel.v`; method: length of the returned axis equals sqrt of the input's norm. partial, 2 theorems in `CuboProps.v`. Finding: Violated: line 665 multiplies by rsqrt(|ho|) instead of 1/|ho|, so the axis has length sqrt|ho|.
* **C78** qu2ho does not modify its argument — model: `CuboModel.v`; method: memory model of the in-place update. partial, 2 theorems in `CuboProps.v`. Finding: Violated: clamp_ on the slice view writes the clamped real part back into the argument; unchanged iff -1 <= w <= 1.
* **C79** Spherical angles can be fed straight back — model: `SphereModel.v`; method: order of the two returned angles. partial, 2 theorems in `SphereProps.v`. Finding: refuted: xyz_to_theta_phi returns (polar, azimuth) while theta_phi_to_xyz takes (azimuth, polar); C32 proves the roundtrip with the order swapped
* **C80** Hexagonal Lambert projection lands on the sphere — model: `SphereModel.v`; method: polynomial identity for the norm. partial, 2 theorems in `SphereProps.v`. Finding: refuted: z = 1 - x^2 - y^2, the norm is 1 only on the equator and at the pole (exact characterisation proved)
* **C81** Inverse Rosca-Lambert projection is defined everywhere — model: `SphereModel.v`; method: division by zero at the pole; exact iff-condition. partial, 2 theorems in `SphereProps.v`. Finding: refuted: 0/0 exactly at the centre of the square, the image of the pole
* **C82** The requested angular resolution determines the grid step — model: `SampModel.v`; method: table of group orders enters the step. partial, 1 theorem in `SampProps.v`. Finding: refuted: the number of SO(3) points is divided by half the Laue multiplicity before the fundamental-zone rejection; at a resolution where the triclinic grid has edge 9 the cubic grid has edge 3
* **C83** s2_equiv_laue returns the symmetry equivalents of every direction — model: `S2Model.v`; method: reshape/transposition model with a witness batch. partial, 1 theorem in `S2Props.v`. Finding: REFUTED: the 2|G| candidates per point are reshaped to |G| rows, so every non-empty call raises.
* **C84** s2_to_fz_laue accepts every unit direction — model: `S2Model.v`; method: region tests that no operator satisfies, witnesses on planes. partial, 3 theorems in `S2Props.v`. Finding: REFUTED: cubic-high rejects every direction with a zero coordinate (e.g. [001]), trigonal-high rejects the pole, triclinic rejects the equator (two matches): the reshape raises.
* **C85** s2_to_fz_laue keeps rows aligned — model: `S2Model.v`; method: boolean-mask compaction model with a witness batch. partial, 1 theorem in `S2Props.v`. Finding: REFUTED: trigonal-high, [(0,0,1),(0,-0.6,0.8)] returns (0,-0.6,0.8) twice.
* **C86** SE(3) logarithm of small rotations — model: `Se3Model.v`; method: first-order branch of the logarithm. partial, 3 theorems in `Se3Props.v`. Finding: Violated by the code: proved as a refutation with an explicit witness (or for every affected input).
* **C87** Small-angle exponentials stay on the group — model: `Se3Model.v`; method: first-order branch of the exponential: norm exceeds one. partial, 2 theorems in `Se3Props.v`. Finding: Violated by the code: proved as a refutation with an explicit witness (or for every affected input).
* **C88** SE(3) logarithm accepts any batch shape — model: `Se3Model.v`; method: shape model of the indexing expression. partial, 3 theorems in `Se3Props.v`. Finding: Violated by the code: proved as a refutation with an explicit witness (or for every affected input).
* **C89** Bruker round trip with the class's tilt convention — model: `GeomModel.v`; method: sign convention of the tilt in both directions. partial, 2 theorems in `GeomProps.v`. Finding: Violated by the code: proved as a refutation with an explicit witness (or for every affected input).
* **C90** Detector pixel coordinates address pixel centres — model: `GeomModel.v`; method: offset of the grid computed for every size. partial, 3 theorems in `GeomProps.v`. Finding: Violated by the code: proved as a refutation with an explicit witness (or for every affected input).
* **C91** An initial se3_vector takes effect — model: `GeomModel.v`; method: constructor overwrites the parameter. partial, 2 theorems in `GeomProps.v`. Finding: Violated by the code: proved as a refutation with an explicit witness (or for every affected input).
* **C92** HR-EBSD coordinates are unit directions — model: `GeomModel.v`; method: normalisation after applying the deformation; homogeneity of degree zero. proved, 4 theorems in `GeomProps.v`.
* **C93** Choosing optimisable geometry parameters — model: `GeomModel.v`; method: mask algebra over six components. proved, 2 theorems in `GeomProps.v`.
* **C94** Reading coordinates that were never set — model: `ExpModel.v`; method: state machine: getter before setter. partial, 2 theorems in `ExpProps.v`. Finding: Violated by the code (C99: its last part): proved as a refutation with an explicit witness (or for every affected input).
* **C95** Combining several phases — model: `ExpModel.v`, `IndexModel.v`; method: loop over phases with overwritten accumulators. partial, 3 theorems in `ExpProps.v`, `IndexProps.v`. Finding: Violated by the code (C99: its last part): proved as a refutation with an explicit witness (or for every affected input).
* **C96** A rejected normalisation leaves the container unchanged — model: `ExpModel.v`; method: order of assignment and exception in the state machine. partial, 1 theorem in `ExpProps.v`. Finding: Violated by the code (C99: its last part): proved as a refutation with an explicit witness (or for every affected input).
* **C97** Preprocessing does not modify the caller's tensor — model: `ExpModel.v`; method: storage aliasing model. partial, 3 theorems in `ExpProps.v`. Finding: Violated by the code (C99: its last part): proved as a refutation with an explicit witness (or for every affected input).
* **C98** Per-phase index tensors are one-dimensional — model: `ExpModel.v`; method: squeeze on one-element index tensors. partial, 2 theorems in `ExpProps.v`. Finding: Violated by the code (C99: its last part): proved as a refutation with an explicit witness (or for every affected input).
* **C99** Inverse deformation gradients — model: `ExpModel.v`; method: broadcast of one matrix to all patterns. partial, 3 theorems in `ExpProps.v`. Finding: Violated by the code (C99: its last part): proved as a refutation with an explicit witness (or for every affected input).
* **C100** Virtual binning uses the requested factor of the current pattern — model: `MpModel.v`; method: cache invariant: copy created once, never refreshed. partial, 3 theorems in `MpProps.v`. Finding: Violated by the code: proved as a refutation (for every affected input, with a witness).
* **C101** Interpolated and normalised intensities — model: `MpModel.v`; method: bilinear weights are a partition of unity. proved, 4 theorems in `MpProps.v`.
* **C102** Hemispheres do not mix — model: `MpModel.v`; method: seam column of the side-by-side image. partial, 5 theorems in `MpProps.v`. Finding: Proved away from the seam; refuted at the seam with explicit witnesses.
* **C103** Energy-weighted master pattern — model: `MpModel.v`; method: weighted sums over energies; one-site precondition. partial, 2 theorems in `MpProps.v`. Finding: Weighted average proved for all data; loading of several atom sites refuted for every such file.
* **C104** Interpolating an empty set of points — model: `MpModel.v`; method: batch size zero in the chunk loop: no fuel suffices. partial, 1 theorem in `MpProps.v`. Finding: Violated by the code: proved as a refutation (for every affected input, with a witness).
* **C105** NLPAR copes with identical neighbours — model: `NlparModel.v`; method: zero variance in the normalised distance. partial, 1 theorem in `NlparProps.v`. Finding: Violated by the code: proved as a refutation for every affected input, with a witness.
* **C106** NLPAR copes with dark patterns at the scan border — model: `NlparModel.v`; method: zero background estimate. partial, 1 theorem in `NlparProps.v`. Finding: Violated by the code: proved as a refutation for every affected input, with a witness.
* **C107** NLPAR with radius 0 is the identity — model: `NlparModel.v`; method: empty neighbourhood. partial, 1 theorem in `NlparProps.v`. Finding: Violated by the code: proved as a refutation for every affected input, with a witness.
* **C108** Gaussian blur keeps odd sizes — model: `BlurModel.v`; method: padding arithmetic for odd sizes. partial, 1 theorem in `BlurProps.v`. Finding: Violated by the code: proved as a refutation for every affected input.
* **C109** Radial masks are discs — model: `BlurModel.v`; method: disc inequality for every pixel, size and radius. proved, 5 theorems in `BlurProps.v`.
* **C110** The default radial mask is never empty — model: `BlurModel.v`; method: thin images with rounded centres. partial, 1 theorem in `BlurProps.v`. Finding: Violated by the code: proved as a refutation for every affected input.
* **C111** Any dictionary chunk size is usable — model: `IndexModel.v`; method: last chunk shorter than k. partial, 2 theorems in `IndexProps.v`. Finding: Violated by the code: proved as a refutation.
* **C112** subtract_exp_pat_mean is honoured — model: `IndexModel.v`; method: flag has no influence on the compared vectors. partial, 2 theorems in `IndexProps.v`. Finding: Violated by the code: proved as a refutation.
* **C113** An exact copy of a dictionary pattern is matched to its orientation — model: `IndexModel.v`; method: distance of an exact copy against a differently scaled entry. partial, 3 theorems in `IndexProps.v`. Finding: Violated by the code: proved as a refutation.
* **C114** Per-position pattern centres — model: `IndexModel.v`; method: shape error for per-position centres. partial, 1 theorem in `IndexProps.v`. Finding: Violated by the code: proved as a refutation.
* **C115** Indexing ignores brightness and contrast — model: `IndexModel.v`; method: affine invariance of the normalised vectors. proved, 2 theorems in `IndexProps.v`.
* **C116** PCA indexing supports virtual binning — model: `IndexModel.v`; method: size mismatch between binned patterns and the pca matrix. partial, 1 theorem in `IndexProps.v`. Finding: Violated by the code: proved as a refutation.
* **C117** Local grid of radius zero — model: `RefineModel.v`; method: degenerate linspace. partial, 2 theorems in `RefineProps.v`. Finding: REFUTED: torch.linspace with one step returns its left end, so radius 0 gives the corner of the cube (dimension 3) or no point at all.
* **C118** Finer refinement grids search finer — model: `RefineModel.v`; method: grids without the needed offset. partial, 2 theorems in `RefineProps.v`. Finding: REFUTED: ho2ax treats homochoric vectors of squared norm below 1e-6 as the identity, so for semi-edges up to 0.13 degrees (and after enough shrinking) only the stored orientation itself is tried.
* **C119** Grid refinement accepts every batch size — model: `RefineModel.v`; method: squeeze of a one-pattern batch. partial, 2 theorems in `RefineProps.v`. Finding: REFUTED: .squeeze() on the simulated patterns drops the batch dimension when a batch holds one pattern; the einsum then fails.
* **C120** Reported orientations do not depend on the dictionary batch size — model: `FitModel.v`; method: index local to the batch. partial, 2 theorems in `FitProps.v`. Finding: REFUTED: lines 515-519 store the index within the dictionary batch, without the batch offset; with two batches entry 0 is reported though entry 1 won (c120_index_within_batch says what the index means).
* **C121** Every pattern gets its best dictionary entry — model: `FitModel.v`; method: initial best of zero against negative scores. partial, 2 theorems in `FitProps.v`. Finding: REFUTED: best similarities start at 0, so a pattern whose scores at the common best position are all negative is given dictionary entry 0 (c121_negative_scores).
* **C122** The reported pattern centre belongs to the best window — model: `FitModel.v`; method: sign of the displacement. partial, 2 theorems in `FitProps.v`. Finding: REFUTED: lines 540-541 add the lag instead of subtracting it: for even detectors with symmetric windows the reported centre is right only at lag 0.
* **C123** The undisplaced window is reported at 1/2 — model: `FitModel.v`; method: centre formula for asymmetric windows. partial, 3 theorems in `FitProps.v`. Finding: REFUTED: lines 540-541 subtract pad + (len+1)//2 although fftshift puts lag 0 at N//2: wrong for odd detectors and asymmetric search windows (H=60, pc in [0.5,1] gives 0.75); right for even detectors and symmetric windows.
* **C124** Every detector width and search window can be fitted — model: `FitModel.v`; method: odd widths: padded size mismatch. partial, 1 theorem in `FitProps.v`. Finding: REFUTED: irfft2 without a size always returns an even number of columns, so odd padded widths fail in torch.maximum.
* **C125** Fitting leaves the caller's patterns alone — model: `FitModel.v`; method: in-place normalisation on a view. partial, 4 theorems in `FitProps.v`. Finding: REFUTED: without binning the in-place normalisation (lines 396-400) writes into the caller's tensor; constant patterns become NaN.
* **C126** The enlarged pixel grid has the detector's pixel pitch — model: `FitModel.v`; method: spacing of the enlarged grid. partial, 3 theorems in `FitProps.v`. Finding: REFUTED: the end points lack the -1 and the paddings are in binned pixels, so the pitch equals the binning only for binning 2 with one padding pixel in total.
* **C127** Fitter directions are unit vectors — model: `FitModel.v`; method: normalisation of rotated directions, NaN exactly at the origin. proved, 4 theorems in `FitProps.v`.
* **C128** Every exiting electron is counted — model: `MonteModel.v`; method: colliding cells in the fancy-index increment. partial, 1 theorem in `MonteProps.v`. Finding: REFUTED: accumulator[idx] += 1 counts electrons sharing a cell in one pass once; witness run with two electrons, yield 2, cell value 1.
* **C129** The simulation ends for every number of electrons — model: `MonteModel.v`; method: loop counter for counts that are not multiples of the batch. partial, 1 theorem in `MonteProps.v`. Finding: REFUTED: with n_electrons = 0 neither counter ever grows, the loop never ends.
* **C130** Monte-Carlo steps are physical — model: `MonteModel.v`; method: sampled free path, energy loss and counting rules with arbitrary uniform draws. proved, 3 theorems in `MonteProps.v`. c130_condition_needed shows an electron of negative energy being counted when the bins reach beyond the starting energy.
* **C131** The OpenCL histogram is exact — model: `MonteModel.v`; method: the OpenCL kernel's index arithmetic over machine integers. proved, 4 theorems in `MonteProps.v`.
* **C132** LFSR113 keeps its state usable — model: `MonteModel.v`; method: bit-level recurrence on 32-bit words; the high bits stay non-zero. proved, 1 theorem in `MonteProps.v`.
* **C133** Every drawn seed gives a working generator — model: `MonteModel.v`; method: seeds with too small words collapse to zero. partial, 1 theorem in `MonteProps.v`. Finding: REFUTED: seeds come from randint(0, 2**32) without the generator's lower bounds; the zero state is a fixed point that draws 0 for ever.
* **C134** Histogram interpolation is exact — model: `MonteModel.v`; method: piecewise interpolants reproduce polynomials of their degree. proved, 3 theorems in `MonteProps.v`.
* **C135** 'error' interpolation — model: `MonteModel.v`; method: segment index off by one. partial, 2 theorems in `MonteProps.v`. Finding: REFUTED: 'error' mode indexes the slope of the NEXT segment: wrong values inside, an exception in the last segment, no exception below the first node (used by resample_to_linear(interpolation='linear')).
* **C136** Symmetrising a histogram keeps its mass — model: `MonteModel.v`; method: sum over the symmetry copies by reindexing. proved, 1 theorem in `MonteProps.v`.
* **C137** Space-group operators form the space group — model: `SgModel.v`; method: translation parts in 24ths, matrices over Z; closure computed for all 230 groups and reflected, generation by induction on the closure loop. proved, 3 theorems in `SgProps.v`. Translations are exact multiples of 1/24; c137_tolerance shows the 5e-4 tolerance then means equality.
* **C138** Centering filter keeps exactly the in-phase reflections — model: `SgModel.v`; method: parity conditions against the phase of every centring translation, all integers h k l. proved, 1 theorem in `SgProps.v`.
* **C139** Operators are homogeneous matrices — model: `SgModel.v`; method: last row of the operator matrices. partial, 1 theorem in `SgProps.v`. Finding: REFUTED: the final fmod(100 + gens[:, :, 3], 1) also hits the corner entry 1 and turns it into 0, in every group.
* **C140** The second origin setting can be used — model: `SgModel.v`; method: second-setting branch never reached with an error. partial, 1 theorem in `SgProps.v`. Finding: REFUTED: the origin shift is read starting at the flag character itself, so all 24 groups raise KeyError('1').
* **C141** A cell knows its crystal class — model: `SgModel.v`; method: class lookup for all space groups. partial, 1 theorem in `SgProps.v`. Finding: REFUTED: the lists hold FIRST members but are searched with sg <= entry: the point group is right only for first members of a class (and 221-230), the system only for first members (and the cubic groups); tetragonal groups 76-142 are treated as trigonal; groups 222-230 get Laue class 12.
* **C142** Cell matrices realise the lattice parameters — model: `CellModel.v`; method: structure matrix against lattice lengths and angles, trigonometric identities. proved, 2 theorems in `CellProps.v`.
* **C143** Component transformations keep the vector (direct/reciprocal/Cartesian) — model: `CellModel.v`; method: change-of-basis matrices; geometric vector as invariant. proved, 2 theorems in `CellProps.v`.
* **C144** r->c and c->d keep the vector — model: `CellModel.v`; method: transposed matrix in two directions; orthogonal cells excepted. partial, 3 theorems in `CellProps.v`. Finding: REFUTED in non-orthogonal cells: rsm is applied untransposed (r->c) resp. transposed (c->d); the hexagonal cell is the witness. c144_orthogonal_cells: right for orthogonal cells.
* **C145** Dot products, lengths, normalisation and angles are geometric — model: `CellModel.v`; method: metric-tensor identities with the Cartesian embedding. proved, 3 theorems in `CellProps.v`.
* **C146** Cross products are geometric (d->d, r->r, r->c, c->c) — model: `CellModel.v`; method: Levi-Civita with the volume factor. proved, 2 theorems in `CellProps.v`.
* **C147** Cross products are geometric in every output frame — model: `CellModel.v`; method: frames where the wrong matrix is applied. partial, 2 theorems in `CellProps.v`. Finding: REFUTED: d->c uses the untransposed rsm (hexagonal witness); d->r and r->d raise; from Cartesian input the output frame is ignored.
* **C148** Change of frame can be undone — model: `CellModel.v`; method: inverse of the change of frame. partial, 2 theorems in `CellProps.v`. Finding: REFUTED: the transpose is used instead of the inverse; c148_orthogonal_frames: right for orthogonal matrices.
* **C149** Impossible cells are rejected — model: `CellModel.v`; method: volume formula for impossible angles. partial, 2 theorems in `CellProps.v`. Finding: REFUTED: for 135/135/135 degrees the determinant is negative, the volume NaN, and the comparison does not raise.
* **C150** Average atomic number and weight are means over atoms — model: `CellModel.v`; method: weighted mean with the wrong denominator. partial, 3 theorems in `CellProps.v`. Finding: REFUTED: torch.mean divides by the number of sites and the multiplicities are summed again: c150_off_by_site_count gives the exact factor; two nickel sites give 14.
* **C151** Density and Z^2 percentages — model: `CellModel.v`; method: unit conversion and partition of percentages. proved, 2 theorems in `CellProps.v`.
* **C152** Atom orbits — model: `CellModel.v`; method: fold over the operators with a distance test. proved, 1 theorem in `CellProps.v`.
* **C153** Orbit positions are distinct modulo the lattice — model: `CellModel.v`; method: distance test without lattice translations. partial, 1 theorem in `CellProps.v`. Finding: REFUTED: the distance is not periodic: in P-1 the site z=5e-6 yields two atoms 1e-5 apart, z=0.500005 one.
* **C154** Reflection tables are sound and closed under differences — model: `CellModel.v`; method: box enumeration and difference table by induction. proved, 3 theorems in `CellProps.v`.
* **C155** (0,0,0) is not a reflection — model: `CellModel.v`; method: origin in the box. partial, 1 theorem in `CellProps.v`. Finding: REFUTED for every cell whose table is not a single point: [1:] removes the first corner instead of (0,0,0).
* **C156** Reflection tables are complete — model: `CellModel.v`; method: index bound by integer truncation. partial, 4 theorems in `CellProps.v`. Finding: REFUTED: the loops stop one short of the limit (c156_outermost_axial_plane_missing, every cell); one corner is removed; a too small cell raises (c156_small_cells_raise). c156_inner_reflections_present says what is present.
* **C157** Rhombohedral to hexagonal conversion — model: `CellModel.v`; method: matrix applied to rows instead of columns. partial, 5 theorems in `CellProps.v`. Finding: REFUTED: alpha is converted to radians twice, angles are stored in degrees, the position matrix is transposed, and only the first n_elements sites are moved.
* **C158** Square-type k-vectors are the equal-area directions of their indices — model: `KvModel.v`; method: index regions mapped through the C33 projection. proved, 2 theorems in `KvProps.v`.
* **C159** Default sampling covers the sphere up to Laue symmetry — model: `KvModel.v`; method: representative of every direction under the Laue group. proved, 2 theorems in `KvProps.v`.
* **C160** Default sampling covers the sphere up to the crystal class — model: `KvModel.v`; method: representative under the crystal class: witnesses where regions are too small. partial, 3 theorems in `KvProps.v`. Finding: REFUTED for P2_1 (group 4, sampled as m): the direction with index (0,-1,+1) and any grid size. c160_where_it_holds lists the groups for which it holds; c160_emsoft_type: with EMsoft's type it holds for all of them, so the masks are right and the selection is wrong.
* **C161** Default sampling exists for every space group — model: `KvModel.v`; method: missing case in the if-chain. partial, 2 theorems in `KvProps.v`. Finding: REFUTED: groups 124-142 (4/mmm) get type -1 and raise ValueError; c161_others_succeed: all others return.
* **C162** Hexagonal-type k-vectors are unit vectors — model: `KvModel.v`; method: norm identity of the hexagonal map. partial, 2 theorems in `KvProps.v`. Finding: REFUTED: the radius rescaling puts z = 1 - x^2 - y^2, so a vector is a unit vector only at the pole and on the equator (c162_unit_iff); the index (0,1) of every grid of half width >= 2 is a counterexample.
* **C163** Hexagonal-type sampling covers the sphere up to symmetry — model: `KvModel.v`; method: hexagonal region leaves a sector out. partial, 1 theorem in `KvProps.v`. Finding: REFUTED for P-3 (147): all k-vectors of type 12 lie in the first octant, while no image of the direction [3 10 1] under the Laue group does, in any hexagonal cell. The type is EMsoft's, so the mask (indices used as Cartesian coordinates) is at fault.
* **C164** Dynamical matrix holds the structure factor of each beam difference — model: `DiffModel.v`; method: index arithmetic of the difference table for all beam pairs. proved, 2 theorems in `DiffProps.v`.
* **C165** Each beam is listed once — model: `DiffModel.v`; method: origin listed twice. partial, 2 theorems in `DiffProps.v`. Finding: REFUTED: get_reflections keeps 000 (C155) and the callers prepend it again, so for every cell with limits other than (1,1,1) the direct beam appears twice and its copies are coupled off the diagonal by U_000 (the mean inner potential).
* **C166** Backscatter matrix is Hermitian — model: `DiffModel.v`; method: complex matrices as pairs; conjugate symmetry of every term. proved, 2 theorems in `DiffProps.v`.
* **C167** Intensities are never negative — model: `DiffModel.v`; method: quadratic form as a sum of squared moduli. proved, 3 theorems in `DiffProps.v`.
* **C168** Friedel symmetry of the structure factors — model: `DiffModel.v`; method: phases of opposite reflections. proved, 2 theorems in `DiffProps.v`.
* **C169** Centering extinctions — model: `DiffModel.v`; method: sum over centring translations vanishes. proved, 1 theorem in `DiffProps.v`.
* **C170** Electron wavelength — model: `DiffModel.v`; method: relativistic formula; monotonicity. proved, 3 theorems in `DiffProps.v`.
* **C171** Scattering-matrix coefficients match the structure factors — model: `DiffModel.v`; method: both helpers expanded to the same sum. proved, 1 theorem in `DiffProps.v`.
* **C172** Excitation errors and wave vectors — model: `DiffModel.v`; method: excitation error from the wave-vector geometry. proved, 4 theorems in `DiffProps.v`.
* **C173** Master pattern does not depend on chunking, weight scale or uninitialised memory — model: `DiffModel.v`; method: chunk loop with uninitialised memory as an oracle. proved, 3 theorems in `DiffProps.v`.
* **C174** 95 percent of the electrons are used — model: `DiffModel.v`; method: cumulative sum search. partial, 3 theorems in `DiffProps.v`. Finding: REFUTED: the bin that reaches 95 percent is excluded, so the integrated weight is always below 95 percent, and a row whose first bin has 95 percent gives a pattern of zeros (c174_shallow_pattern_zero_refuted). c174_next_bin_reaches_goal: one more bin would do.
* **C175** Depth step matters — model: `DiffModel.v`; method: parameter does not occur in the result. partial, 1 theorem in `DiffProps.v`. Finding: REFUTED: depth_step is never read.
* **C176** Exponent is the Darwin-Howie-Whelan matrix of the inverted crystal — model: `DiffModel.v`; method: sign of the phase in the exponent compared with the inverted crystal. proved, 3 theorems in `DiffProps.v`.
* **C177** The two structure-factor helpers agree everywhere — model: `DiffModel.v`; method: two branches without absorption. partial, 2 theorems in `DiffProps.v`. Finding: REFUTED: without absorption q_g is |U_g| lambda (the phase is lost); extinct reflections get 1e-8 + 1e-8 i instead of 0. Partial counterpart: C171.
* **C178** Master patterns for several voltages and without absorption — model: `DiffModel.v`; method: shape model of the voltage axis. partial, 3 theorems in `DiffProps.v`. Finding: REFUTED: the (chunk, n_g) excitation errors are broadcast against the (n_voltages,) absorption values, so any voltage count other than 1 or n_g raises; without absorption upmod is a complex tensor and torch.complex raises. c178_one_voltage: one voltage with absorption works.
* **C179** Exponent is the Darwin-Howie-Whelan matrix of the given crystal — model: `DiffModel.v`; method: witness non-centrosymmetric cell. partial, 1 theorem in `DiffProps.v`. Finding: REFUTED for a two-atom crystal without inversion centre; the code uses U(g_j - g_i), see C176.
* **C180** The caller's Monte Carlo weights are left alone — model: `DiffModel.v`; method: in-place division of the weights. partial, 2 theorems in `DiffProps.v`. Finding: REFUTED: 'mc_weights /= mc_weights.sum()' works in place; c180_weights_after_call: the caller's tensor sums to one afterwards and a second call sees the same weights.
* **C181** Batch mutual information is never below the true value — model: `MiModel.v`; method: log-sum inequality on the batch average. proved, 3 theorems in `MiProps.v`.
* **C182** Batch mutual information is mutual information — model: `MiModel.v`; method: explicit two-pixel images. partial, 3 theorems in `MiProps.v`. Finding: REFUTED: the joint bin is a * (n_bins - 1) + b instead of a * n_bins + b, so different bin pairs share a joint bin: two independent images [0,0,1,1] and [0,1,0,1] get ln 2 / 2 with 2 bins; with 3 bins swapping the arguments changes the result, which also exceeds the entropy of the second image.
* **C183** Binned mutual information is the mutual information of the bin pairs — model: `MiModel.v`; method: joint histogram as counting function; Gibbs inequality. proved, 5 theorems in `MiProps.v`.
* **C184** Normalised mutual information — model: `MiModel.v`; method: normalisation formulas, entropy bounds. proved, 3 theorems in `MiProps.v`.
* **C185** exclude_lowest_bin ignores the pixels in a lowest bin — model: `MiModel.v`; method: filtered histogram equals histogram of the filtered pixels. proved, 2 theorems in `MiProps.v`.
* **C186** Pixels equal to 1 count — model: `MiModel.v`; method: upper edge of the last bin excluded. partial, 1 theorem in `MiProps.v`. Finding: REFUTED: floor(1.0 * bins) = bins lies outside the histogram (or is counted in another row of the joint table): [0, 1] with itself and 2 bins gives 0 instead of ln 2.
* **C187** Batches of images — model: `MiModel.v`; method: map over pairs; length error. proved, 2 theorems in `MiProps.v`.
* **C188** The cross mutual information map gives the mutual information at every displacement — model: `MiModel.v`; method: Fourier sums as discrete correlation; counts of overlapping bins. proved, 3 theorems in `MiProps.v`. Exact reals: in floating point the test 'count < 1.0 -> 0' of the FFT counts can drop a count of one.
* **C189** Chunking, constant marginals, masks and white pixels do not spoil the cross mutual information map — model: `MiModel.v`; method: chunk offsets and zero marginals with witnesses. partial, 4 theorems in `MiProps.v`. Finding: REFUTED, one theorem each: (chunks) range(1, bins, chunk) misses the last level when chunk_size divides bins - 1, e.g. 9 bins and chunk size 8, giving twice the entropy; (constant_marginal) the marginal uses bins * value * 0.99999, the joint bins * value, so a value on a bin edge is binned differently; (1.0) belongs to no level; (masks) enter the marginals only, not the joint histogram. Odd widths: irfft2 without a size returns an even number of columns.
* **C190** The flat Wigner-table positions and their inverse — model: `WigModel.v`; method: tetrahedral/triangular numbers over Z; integer cube root with any rounding, int32 bound. proved, 7 theorems in `WigProps.v`.
* **C191** Signed log-sum-exp adds — model: `WigModel.v`; method: signed exponentials, NaN-extended arithmetic. proved, 2 theorems in `WigProps.v`.
* **C192** The Wigner d tables hold Wigner's functions — model: `WigModel.v`; method: Wigner's explicit sum is shown to satisfy the three-term recursion and the seeds; table loop invariant over all orders, uninitialised memory arbitrary. proved, 3 theorems in `WigProps.v`.
* **C193** wigner_d_lt_half_pi at beta = 0 — model: `WigModel.v`; method: log of zero at angle 0. partial, 2 theorems in `WigProps.v`. Finding: REFUTED: at beta = 0 the log power table contains 0 * log(0) = NaN, so every entry d^m_mm is NaN (c193_zero_angle_nan, for every L).
* **C194** Table look-up for all signs — model: `WigModel.v`; method: symmetries of Wigner's sum; sign cases of the lookup. proved, 4 theorems in `WigProps.v`.
* **C195** The sparse Legendre weights evaluate the associated Legendre functions — model: `ShtModel.v`; method: Edmonds' formula at pi/2 by the composition of two quarter rotations. proved, 4 theorems in `ShtProps.v`.
* **C196** The Driscoll-Healy grid and its quadrature weights are exact below the bandlimit — model: `ShtModel.v`; method: finite trigonometric sums evaluated in closed form, exactness for all degrees below the bandlimit. proved, 6 theorems in `ShtProps.v`.
* **C197** The DCT and DST matrices are orthogonal — model: `ShtModel.v`; method: orthogonality of cosine/sine systems by telescoping sums. proved, 3 theorems in `ShtProps.v`.
* **C198** CSHT: synthesis, analysis and round trip — model: `ShtModel.v`; method: synthesis and analysis as finite sums; quadrature exactness and Legendre orthogonality. proved, 4 theorems in `ShtProps.v`.
* **C199** RSHT is CSHT restricted to real signals — model: `ShtModel.v`; method: conjugate symmetry reduces to C198. proved, 4 theorems in `ShtProps.v`.
* **C200** Every voxel of the cross-correlation volume is the correlation at explicit Euler angles — model: `CcModel.v`; method: index bookkeeping of the padded Fourier volume; equality with the Wigner-D expansion. proved, 4 theorems in `CcProps.v`.
* **C201** The fast correlation of real signals equals the plain one — model: `CcModel.v`; method: real-FFT layout compared entry by entry; counterexample bandwidths. partial, 3 theorems in `CcProps.v`. Finding: REFUTED: the coefficients of negative order of g (g_n_aug) are computed and then not used; for every B >= 2 the signal with the single coefficient (1,1) has self-correlation -2 in voxel (0,0,0) while rs2cc_fast_ gives 0. c201_zonal_partial: they agree when g has no coefficient of positive order.
* **C202** No correlation value exceeds the product of the signal norms — model: `CcModel.v`; method: Cauchy-Schwarz with unitary Wigner matrices. proved, 3 theorems in `CcProps.v`.
* **C203** Hexagonal sampling types mirror exactly the polar types — model: `KvModel.v`; method: reflection of index lists. proved, 2 theorems in `KvProps.v`.
* **C204** Each depth bin sees the wave after one more slab — model: `DiffModel.v`; method: powers of one slab propagator. proved, 3 theorems in `DiffProps.v`.
* **C205** Composite Simpson quadrature is exact for low-degree polynomials — model: `SfModel.v`; method: weights of each interval pair; polynomial exactness by algebra and induction over intervals. proved, 4 theorems in `SfProps.v`.
* **C206** Non-negative samples have a non-negative Simpson integral — model: `SfModel.v`; method: weight of the third node computed with bounds for exponentials. partial, 2 theorems in `SfProps.v`. Finding: REFUTED: on the default logarithmic grid the third sample has a negative weight (the first two intervals differ by a factor of more than 20). c206_moderate_grids proves the claim for grids whose neighbouring intervals differ by at most a factor of two.
* **C207** Lobato-Van Dyck real factors: positive, even, strictly decreasing — model: `SfModel.v`; method: one inequality per table row: dominance of the positive terms, decided by exact rational computation. proved, 1 theorem in `SfProps.v`.
* **C208** Weickenmeier-Kohl real factors: positive, even, close to the published formula — model: `SfModel.v`; method: three branches per term with remainder bounds. proved, 1 theorem in `SfProps.v`.
* **C209** Weickenmeier-Kohl real factors decrease with |g| — model: `SfModel.v`; method: values at the branch point. partial, 1 theorem in `SfProps.v`. Finding: REFUTED: where b S^2 crosses 0.1 the branch changes from a second-order series (0.095) to the exponential (0.0952), an upward jump; witness hydrogen at S = 0.1548.
* **C210** Atomic numbers outside the tables are rejected — model: `SfModel.v`; method: Python negative indexing for all integers. partial, 3 theorems in `SfProps.v`. Finding: REFUTED for zero and negative numbers: they silently use the rows counted from the end of the table (Z = 0 is element 98 or 102). Proved: too large numbers raise IndexError, including 99..102 in the hybrid function.
* **C211** A single thermal displacement applies to all elements — model: `SfModel.v`; method: broadcast of shape lists. partial, 1 theorem in `SfProps.v`. Finding: REFUTED: one displacement with two or more elements raises RuntimeError in all three functions, for every non-empty g.
* **C212** Lobato-Van Dyck factors for several voltages equal the single-voltage ones — model: `SfModel.v`; method: broadcast of the voltage axis. partial, 1 theorem in `SfProps.v`. Finding: REFUTED: with two or more voltages the call raises RuntimeError unless N_g = N_V, and then the absorption of entry (v, z, g) is divided by the wave number of voltage number g: it is the single-voltage value times lambda(g)/lambda(v).
* **C213** Scattering factors are finite, real parts positive, hybrid absorption never negative — model: `SfModel.v`; method: case analysis over branches in NaN-extended arithmetic. proved, 2 theorems in `SfProps.v`.
* **C214** Lobato-Van Dyck absorption is non-negative — model: `SfModel.v`; method: sign of the integrand on short ranges. partial, 1 theorem in `SfProps.v`. Finding: REFUTED: for every element, displacement and voltage it is negative whenever a uniform range [0, hi] has 32 hi^2 < g^2 (for instance hi = 1, g = 8).
* **C215** exp1 is the exponential integral E1 — model: `SfModel.v`; method: rational approximations against the integral through a monotone-error argument: derivative of (approximation - E1) exp(x) bounded by exact polynomial sign checks. proved, 2 theorems in `SfProps.v`.
* **C216** expi is the exponential integral Ei — model: `SfModel.v`; method: as C215 on four ranges, principal value as a limit. proved, 3 theorems in `SfProps.v`.
* **C217** expi reaches single precision everywhere — model: `SfModel.v`; method: lower bound of Ei just above the junction. partial, 1 theorem in `SfProps.v`. Finding: REFUTED: just above 20 the last range is 7e-7 too large (relative).
* **C218** RIH2 approximates x exp(-x) Ei(x) — model: `SfModel.v`; method: table nodes against the asymptotic expansion. partial, 2 theorems in `SfProps.v`. Finding: REFUTED: the offset of the table node is 0.5e-3 idx instead of 5e-3 idx, so that at X = 200/k the value is t_k + 0.9 k (t_{k+1} - t_k) instead of t_k; at X = 25 it is more than 4 % too large. For X > 200 (first interval) it is proved to be within 3e-5.
* **C219** Phonon absorption of the unscattered beam is the thermal diffuse integral — model: `SfModel.v`; method: Frullani-type improper integral in closed form. proved, 4 theorems in `SfProps.v`.
* **C220** Without thermal displacement the phonon absorption is zero — model: `SfModel.v`; method: NaN propagation at zero displacement. partial, 1 theorem in `SfProps.v`. Finding: REFUTED: the absorption is NaN for every g and element (0 log 0 at g = 0, inf - inf elsewhere), and the clamp keeps NaN.
* **C221** The electron wavelengths of the package agree — model: `SfModel.v`; method: three formulas equal by algebra. proved, 2 theorems in `SfProps.v`.
* **C222** Structure factors with Weickenmeier-Kohl: units are converted correctly — model: `SfModel.v`; method: unit factors in the structure factor. proved, 1 theorem in `SfProps.v`.
* **C223** Structure factors with hybrid factors: units are converted correctly — model: `SfModel.v`; method: missing factor. partial, 1 theorem in `SfProps.v`. Finding: REFUTED: the caller multiplies g by 2 pi and the function does so again: the amplitude is taken at 2 pi g and the Debye-Waller exponent is 4 pi^2 times too large, for every g > 0; the result is strictly too small.
* **C224** Every scattering factor depends only on its own voltage, element, displacement and g — model: `SfModel.v`; method: index functions of the result tensor. proved, 4 theorems in `SfProps.v`.
* **C225** Unknown return types are rejected — model: `SfModel.v`; method: if-chain over strings. partial, 1 theorem in `SfProps.v`. Finding: REFUTED: scatter_factor_WK then returns ITC factors at g/2pi, scatter_factor_LVD the EMsoft factors. The hybrid function does reject (c224_names).
* **C226** Extended-exponent numbers: normalisation keeps the value, is canonical, and the power tables hold the powers — model: `XnumModel.v`; method: case split of the normalisation; floor/remainder of k log2 b for the power tables. proved, 7 theorems in `XnumProps.v`.
* **C227** Conversion to an ordinary float is exact for exponent 0 and within 2^-230 below — model: `XnumModel.v`; method: exponent cases. proved, 3 theorems in `XnumProps.v`.
* **C228** Conversion returns the number a normalised pair stands for — model: `XnumModel.v`; method: literal pairs of the model, both default types. partial, 4 theorems in `XnumProps.v`. Finding: REFUTED: 2.0**IND with an int32 IND is computed in torch's default type; in float32 2^460 is infinite and 2^-460 is zero, so (1, -1) gives 0 and (1, 1) gives infinity. In float64 every negative exponent is treated as -1: (1, -2) gives 2^-460 instead of 2^-920.
* **C229** Linear combinations: exact for equal (and in float64 neighbouring) exponents, relative error 2^-460 otherwise — model: `XnumModel.v`; method: exponent difference cases with normalisation bounds. proved, 3 theorems in `XnumProps.v`.
* **C230** Linear combinations keep both terms — model: `XnumModel.v`; method: literal pairs on the two sides of an exponent boundary. partial, 2 theorems in `XnumProps.v`. Finding: REFUTED: in torch's default float32 the term with the smaller exponent is multiplied by zero: 2^-230 + 2^-231 gives 2^-230. With any default type a zero with a larger exponent swallows the other term: (0, 0) + (1, -2) is 0.
* **C231** Wigner table from extended-exponent numbers is accurate — model: `XnumModel.v`; method: loop invariant 'cell within E_l of d^l_mn', recursion coefficients bounded by 2l+1; E_l = (2l+3) E_(l-1). proved, 2 theorems in `XnumProps.v`. Errors of single operations are amplified by the recursion coefficients in the proof (worst case), which is why the order is limited; C232 shows that the relative error is not small in general.
* **C232** Extended-exponent entries are relatively accurate — model: `XnumModel.v`; method: angles chosen through asin so that d^2_20 has a prescribed power of two. partial, 3 theorems in `XnumProps.v`. Finding: REFUTED: with torch's default float32 the second term of the recursion is lost when the exponents differ by one (d^4_20 is 7/6 or more of its value at the angle with d^2_20 = 2^-231); entries below 2^-690 come out as 0, or 2^460 times too large in float64 (2^-750 is reported as 2^-290).
* **C233** The end points of the angle range work — model: `XnumModel.v`; method: NaN invariant through the whole table at 0; seed at pi evaluated. partial, 3 theorems in `XnumProps.v`. Finding: REFUTED: at 0 every entry is NaN (log2 of zero times zero); at pi the seeds are computed with the half powers, which belong to pi/2: entry (1,1,0) is sqrt(2)/2 instead of 0.
* **C234** Looking up non-negative orders — model: `XnumModel.v`; method: position arithmetic and the transposition symmetry of Wigner's sum. proved, 1 theorem in `XnumProps.v`.
* **C235** Looking up negative orders — model: `XnumModel.v`; method: position of (1,1,-1) coincides with that of (1,0,0). partial, 2 theorems in `XnumProps.v`. Finding: REFUTED: signs are ignored in the position: (1, 1, -1) reads the entry of (1, 0, 0) and gives 0 instead of 1/2.
* **C236** Cube and cubic Rodrigues zone: the two maps are mutually inverse, radial and symmetric — model: `RfzModel.v`; method: both maps rewritten as scaling by a function of maximum and sum of the absolute coordinates. proved, 5 theorems in `RfzProps.v`.
* **C237** cube_to_rfz takes the cube into the fundamental zone — model: `RfzModel.v`; method: corner of the cube as witness; the bodies compared by inequalities in maximum and sum. partial, 3 theorems in `RfzProps.v`. Finding: REFUTED: the directions are exchanged (the corner of the cube is moved outwards). Proved instead: rfz_to_cube(x) is in the zone exactly if x is in the cube, cube_to_rfz(x) is in the cube exactly if x is in the zone; the zone is the one ori_in_fz_laue tests for id 11.
* **C238** Orientation colours are HSL colours of the direction in the fundamental sector — model: `ColModel.v`; method: sector representative from C15, hue sextants by cases, field identities. proved, 1 theorem in `ColProps.v`. Below 1/2 and above 1 see C241 and C243; the rotated direction must have its representative inside the sector by more than the tolerance (on the boundary the reshape in s2_to_fz_laue raises, C15).
* **C239** Colours do not depend on the symmetry operation applied after the orientation or on the sign of the direction — model: `ColModel.v`; method: composition of rotations and transitivity of direction equivalence. proved, 1 theorem in `ColProps.v`.
* **C240** Equivalent orientations have the same colour — model: `ColModel.v`; method: rational orientation and direction; 255 occurs exactly from lightness 1/2 on. partial, 1 theorem in `ColProps.v`. Finding: REFUTED: ori_equiv_laue multiplies by the symmetry on the right while the colour rotates the direction by q itself (not its inverse), so the symmetry acts on the reference direction: q = (4/5, 0, 0, 3/5), direction (1, 2, 2)/3, three-fold axis 111 give a colour with and without a channel at 255.
* **C241** Dark colours are HSL colours — model: `ColModel.v`; method: six hue sextants, floor of 255 times a positive channel. partial, 1 theorem in `ColProps.v`. Finding: REFUTED for every such orientation: the saturation of the intermediate HSV colour is not divided by the value, so the smallest channel is 2L(1-2L) instead of 0 and the bytes differ.
* **C242** Colour bytes are determined for tetragonal-high, hexagonal-high and cubic-high — model: `ColModel.v`; method: azimuth range of the sector test and monotone channel bounds. proved, 1 theorem in `ColProps.v`.
* **C243** Colour bytes are determined for the other Laue classes — model: `ColModel.v`; method: a direction with azimuth 1.04 or -1 per class and two conversions that differ out of range. partial, 1 theorem in `ColProps.v`. Finding: REFUTED for each of the eight ids: azimuths above 1 rad (or negative, for the trigonal sectors) give channels above 255 or below 0, whose conversion to unsigned byte is undefined.
* **C244** The homochoric inverse recovers the rotation — model: `HoModel.v`; method: differential equation of cos(w/2) in the squared radius: residual of the polynomial bounded in verified fixed point, integrated by the mean value theorem; Newton step by mean value and monotone ratios. proved, 3 theorems in `HoProps.v`. Rounding of floating-point arithmetic is not modelled; the bounds are those of the fits. Smaller rotations: C249.
* **C245** The reference homochoric inverses are as accurate as documented — model: `HoModel.v`; method: the same certificate for the two longer tables, perturbed by the error of the constant term. proved, 3 theorems in `HoProps.v`.
* **C246** Conversions into homochoric and cubochoric coordinates keep the rotation — model: `HoModel.v`; method: composition of the conversions already proved (C26, C27, C29, C30), uniqueness of the quaternion with positive real part. proved, 2 theorems in `HoProps.v`. Half turns are excluded because om2ax is NaN there (C73) and the quaternion is only unique up to sign; negative real parts: C76.
* **C247** Conversions out of homochoric and cubochoric coordinates agree and keep the rotation — model: `HoModel.v`; method: C244 composed with C25, C27, C29, C30. proved, 3 theorems in `HoProps.v`.
* **C248** ho2ax_newton computes the angle for every rotation — model: `HoModel.v`; method: concavity of the radius (Huygens-type inequality), Pade guess bounded by Taylor sums, quadratic decrease of the error. proved, 1 theorem in `HoProps.v`. The axis it returns has the wrong length: C77.
* **C249** Small rotations survive the round trip through homochoric coordinates — model: `HoModel.v`; method: radius at most w/2 compared with the threshold. partial, 3 theorems in `HoProps.v`. Finding: REFUTED: every rotation by less than 0.002 rad (0.0002 rad for ho2ax_reference) is returned as the identity, with axis (0, 0, 1): the thresholds 1e-6 and 1e-8 are compared with the squared radius.
* **C250** A simulation's histogram is the sum of its launches — model: `SimModel.v`; method: loop invariant over the launches, pointwise and in total; counting argument for termination. proved, 2 theorems in `SimProps.v`. What a launch returns is a quantified argument of the accumulator's shape; float32 rounding of large counts is not modelled.
* **C251** run_simulation returns — model: `SimModel.v`; method: induction on the iterations with a zero contribution. partial, 3 theorems in `SimProps.v`. Finding: REFUTED: when the launches contribute no retained count (no electrons, n_max_steps_override=0, only dropped energies) the loop runs forever for every number of iterations; c251_zero_steps_count_nothing exhibits such a launch.
* **C252** Energy rows of the returned histogram — model: `SimModel.v`; method: floor arithmetic on the kernel's energy index. proved, 1 theorem in `SimProps.v`.
* **C253** The beam has the energy the caller asked for — model: `SimModel.v`; method: direct computation on the constructor's parameters. partial, 1 theorem in `SimProps.v`. Finding: REFUTED: electrons start at kV + n_energy_bins_extra * binsize_exit_energy (32 keV for a 30 kV simulation with the defaults); equal to kV exactly when n_energy_bins_extra is 0.
* **C254** The step search returns the first sufficient candidate — model: `SimModel.v`; method: induction over the candidates; the NaN case of an empty marginal handled by sign. proved, 2 theorems in `SimProps.v`.
* **C255** The number of steps found fills the energy marginal — model: `SimModel.v`; method: witness: empty launches. partial, 1 theorem in `SimProps.v`. Finding: REFUTED: when no candidate fills the marginal 2000 is returned without any report.
* **C256** Resampling to linear depth — model: `SimModel.v`; method: C134 on the computed markers, exponential monotonicity. proved, 3 theorems in `SimProps.v`. Exact reals; the number of bin edges in floating point is C260.
* **C257** Resampling preserves counts — model: `SimModel.v`; method: witness with bins of width ln 2. partial, 1 theorem in `SimProps.v`. Finding: REFUTED: the values are counts per nm and are never multiplied by linear_binsize: 7 counts in three bins become 14.
* **C258** Depths outside the recorded range are rejected — model: `SimModel.v`; method: witness with bins of width ln 2. partial, 1 theorem in `SimProps.v`. Finding: REFUTED: _interpquad ignores extrapolate='error' and extrapolates the last parabola: more than 100 counts per nm at 50 nm from a histogram that ends at 7 nm.
* **C259** Linear resampling stays between neighbouring densities — model: `SimModel.v`; method: witness with bins of width ln 2. partial, 1 theorem in `SimProps.v`. Finding: REFUTED: the segment to the right is used (C135): densities 0 and 1 give 4/3.
* **C260** The resampler accepts its own simulator's histogram — model: `SimModel.v`; method: nearest doubles identified by the gap around each of the three results (no library of floats). partial, 2 theorems in `SimProps.v`. Finding: REFUTED with round-to-nearest double arithmetic in the length of torch.arange: 199 bins of the default size 0.1 give 201 edges, so the division by 200 sizes fails; c260_exact_steps proves the count right when the products are exactly representable (for example binsize 0.25).
* **C261** The simulation is mirror symmetric — model: `SimModel.v`; method: reflection commutes with the scattering step, induction on the steps, oddness of the Lambert map. proved, 3 theorems in `SimProps.v`.
* **C262** Energy rows of a simulation — model: `CleanModel.v`; method: counterexample: nearest double to 1/10, exact floor division. partial, 1 theorem in `CleanProps.v`. Finding: REFUTED: kV=30 with a step of 0.1 (any double nearest to 1/10) gives 299 rows: // divides by the stored double, which exceeds 0.1, so the lowest energies have no row.
* **C263** standard_clean succeeds and bounds its output — model: `CleanModel.v`; method: composition of the min-max, CLAHE acceptance and shape theorems over a list of patterns. proved, 1 theorem in `CleanProps.v`. Exact reals: in float32 a value may round up to 1; NaN pixels excluded.
* **C264** standard_clean removes what all patterns share — model: `CleanModel.v`; method: the pixel mean shifts by the background plus the mean offset; min-max is shift invariant; the rest is a function of its result. proved, 1 theorem in `CleanProps.v`. Exact reals (float32 subtraction cancels only approximately).
* **C265** standard_clean keeps a pattern's features — model: `CleanModel.v`; method: the only pattern equals the mean; constant images stay constant through CLAHE and min-max. partial, 1 theorem in `CleanProps.v`. Finding: REFUTED: a scan of one pattern is its own mean; the cleaned pattern is 0 in every pixel, whatever it was.
* **C266** Downsampling — model: `CleanModel.v`; method: weights of the cubic kernel sum to one with negative part at most 3/16 per axis; mirrored taps; kernel total one. proved, 5 theorems in `CleanProps.v`. mode='bicubic' (the default); exact reals. Flips with align_corners=True need at least two output samples per axis.
* **C267** Downsampled pixels stay in the range of the input — model: `CleanModel.v`; method: counterexample: the five-tap kernel of factor 2 computed by its ratios, exp(27/8) > 16. partial, 1 theorem in `CleanProps.v`. Finding: REFUTED: bicubic interpolation overshoots next to an edge: with the default factor 2 a vertical 0/1 edge gives a column of pixels above 1.
* **C268** Downsampled size of exact multiples — model: `CleanModel.v`; method: counterexample in nearest doubles. partial, 1 theorem in `CleanProps.v`. Finding: REFUTED with round-to-nearest doubles: int(98 * (1/49)) is 1, not 2.
* **C269** do_nlpar averages neighbouring patterns of the scan — model: `CleanModel.v`; method: composition of the NLPAR averaging theorem with the row-major view of the scan. proved, 2 theorems in `CleanProps.v`. When NLPAR's arithmetic is undefined (C105-C107) the call fails or returns NaN; exact reals.
* **C270** Quantised search is nearly exact — model: `KnnModel.v`; method: simulation: the quantised run equals an exact run on one-hot queries and encoded rows; pigeonhole for clear winners. proved, 2 theorems in `KnnProps.v`. The product is an arbitrary function of (call, query, row); its error bound is a hypothesis (FBGEMM is not modelled). Every chunk is searched with the whole query set, once.
* **C271** Patterns of deformed grains — model: `HrModel.v`; method: composition of the pointwise interpolation theorem with the direction theorems. proved, 4 theorems in `HrProps.v`. mode='bilinear', virtual_binning=1; coordinates without NaN; exact reals.
* **C272** quaternion_rotate_sets_sphere keeps the batch shape — model: `RotsModel.v`; method: torch's indexing and broadcasting rules on shapes, computed for every batch shape. partial, 2 theorems in `RotsProps.v`. Finding: REFUTED: exactly one batch dimension works; a single pair of points (3,) and two or more batch dimensions raise, because the output is allocated with points_start.shape[0] rows. torch's indexing and broadcasting rules are modelled on shapes.
* **C273** Rounding error of quaternion products — model: `FpModel.v`; method: generic forward error analysis of rounded expression trees, Cauchy-Schwarz for the magnitudes, induction over the chain; Flocq for the double precision instance. proved, 5 theorems in `FpProps.v`. Rounding is a relation between the exact and the rounded result of one operation; the double precision instance is rounding to a nearest double, related to the error model through Flocq's generic rounding.
* **C274** Rounding error of rotating points — model: `FpModel.v`; method: the same error analysis on the tree with the stored first product substituted. proved, 2 theorems in `FpProps.v`. Same rounding model; the first product is stored and used three times, as in the code.
* **C275** Short vectors keep their length under float rotation — model: `FpModel.v`; method: every rounding step computed for all short vectors: the doubles next to 1/2 are 2^-54 away. partial, 1 theorem in `FpProps.v`. Finding: REFUTED for the code: theorem c275_short_vectors_refuted gives a whole interval of counterexamples; C274 is the absolute bound that does hold.
* **C276** Angular neighbour search with float inner products — model: `FpModel.v`; method: error analysis over all summation trees, then C270. proved, 2 theorems in `FpProps.v`. The run uses the model's arbitrary-product search of C270 (for the angular metric the quantised and unquantised code differ only in the product).
* **C277** Accuracy of the float disorientation cosine — model: `FpModel.v`; method: perturbation of quaternion products by norms, maximum of close lists. proved, 2 theorems in `FpProps.v`. The stored group elements, the two float products before the real part and the maximum are all modelled; acos itself is exact.
* **C278** Float disorientation angle of an orientation with itself — model: `FpModel.v`; method: counterexample in nearest doubles, every rounding step computed. partial, 1 theorem in `FpProps.v`. Finding: REFUTED for the code: theorem c278_self_disorientation_refuted; the missing clamp is laue_fz_ori.py:469 and laue_fz_misori.py:203.
* **C279** The simulated beam enters in the direction asked for — model: `SimModel.v`; method: normalisation of the already unit start direction, acos of cos. proved, 3 theorems in `SimProps.v`.
* **C280** Density and atomic weight only set the length scale — model: `SimModel.v`; method: induction on the steps of a trial: the factor cancels in every energy loss and multiplies every depth change. proved, 4 theorems in `SimProps.v`. Exact arithmetic; the kernel's trial recursion, with the recorded cell of C261.
* **C281** The second structure matrix is a structure matrix — model: `TrigModel.v`; method: product of two proper rotations; legs of the right triangles; table scan of the crystal systems. proved, 2 theorems in `TrigProps.v`. The volume check and NaN volumes are in C149; the entries' NaN pattern is abstracted to 'some entry is NaN'.
* **C282** The second structure matrix aligns the three-fold axis — model: `TrigModel.v`; method: table scan, cosine monotonicity, half-angle identities for the body diagonal. partial, 4 theorems in `TrigProps.v`. Finding: REFUTED for the code: the seven rhombohedral groups get no second matrix at all, every tetragonal group after 75 gets one that tilts c off z, and the formula takes pi/2 times an angle that is already in radians and transposes both turns, so for group 143 on rhombohedral axes the result is NaN between 2/3 and 4/3 radians and misses z below. c282_half_angle_untransposed_is_right proves the formula with alpha/2 and without the transpositions.
* **C283** Normalisation is accurate in floating point — model: `UnitModel.v`; method: error analysis of the sum of squares over all summation trees, then of the square root and the quotients; Flocq for the double instance. proved, 3 theorems in `UnitProps.v`. Every operation rounded; the general theorem covers float32 and fused or reordered sums through u and eta. Overflow is excluded by the range of the norm.
* **C284** Every non-zero quaternion can be normalised — model: `UnitModel.v`; method: induction over the summation tree: every square rounds to zero. partial, 1 theorem in `UnitProps.v`. Finding: REFUTED for the code: when no component exceeds 2^-538 the squares underflow and the quotients are not finite, whatever the order of the sum; the exact formula would give a unit quaternion.
* **C285** Disorientation of normalised inputs is accurate — model: `UnitModel.v`; method: C283 composed with the product perturbation and the float disorientation bound. proved, 1 theorem in `UnitProps.v`. Operators stored as nearest doubles; composition of C283 with the error analysis of C277.
* **C286** The angle of a normalised quaternion is always a number — model: `UnitModel.v`; method: monotone rounding of the sums, and the rounded root of a rounded square returns the number: gap below a 53-bit number against the rounding error. proved, 2 theorems in `UnitProps.v`. Every operation rounded to a nearest double, without fused multiply-add and without extended precision.
* **C287** Rotating by a normalised quaternion is accurate — model: `UnitModel.v`; method: C283 and C274 composed with the perturbation of the sandwich product. proved, 1 theorem in `UnitProps.v`. Composition of C283 with the strengthened C274 (quaternions of norm up to 1 + 1e-12).
* **C288** Detector directions are accurate — model: `DirModel.v`; method: perturbation of the rounded rows, sum and norm, then of the quotient; kernel: rounding of sums in any order. proved, 2 theorems in `DirProps.v`. Relative error bound: the amplification (|p|+|t|)/|Mp+t| is 1 when pixel and translation do not cancel.
* **C289** Dictionary directions are accurate — model: `DirModel.v`; method: C288 and C287 composed through the isometry of the sandwich product. proved, 1 theorem in `DirProps.v`. Composition of C288 with C287 through the isometry of qu_apply.
* **C290** Rotation matrices are accurate — model: `RotModel.v`; method: error of the nine entries as single expressions, the sum of squares in any order. proved, 2 theorems in `RotProps.v`. Generic-rounding theorem plus its instance for round-to-nearest doubles.
* **C291** Matrices of normalised quaternions are accurate and orthonormal — model: `RotModel.v`; method: C283 and C290 composed with the perturbation of the matrix entries; closeness to an orthonormal matrix. proved, 3 theorems in `RotProps.v`. Composition of C283 and C290; c291_geometry_hypothesis discharges the matrix hypothesis of C288 and C289.
* **C292** The matrix of a product is the product of the matrices, in doubles — model: `RotModel.v`; method: C273 and C290 composed; the exact matrices multiply. proved, 1 theorem in `RotProps.v`. Composition of C273 and C290; the sign chosen by qu_std does not matter.
* **C293** Bunge angles to quaternions are accurate — model: `BunModel.v`; method: error propagation through the half sums, the functions (mean value theorem) and the products. proved, 2 theorems in `BunProps.v`. The sign of a real part that is zero up to rounding may differ from exact arithmetic, hence the accuracy is up to a common sign. Generic-rounding theorem plus its double instance.
* **C294** Bunge angles to matrices are accurate — model: `BunModel.v`; method: C293 and C290 composed with the perturbation of the matrix entries. proved, 1 theorem in `BunProps.v`. Composition of C293 and C290.

# What `Print Assumptions` lists for each theorem

Generated from the output of the `Properties*.v` files.

## Set A (455 theorems)

* `ClassicalDedekindReals.sig_forall_dec`
* `ClassicalDedekindReals.sig_not_dec`
* `FunctionalExtensionality.functional_extensionality_dep`

`C09_convert_dual`, `C09_convert_is_projection`, `C09_convert_is_projection_distinct`, `C09_momentum_route_agrees`, `C09_self_conversion_differs_refuted`, `C100_missing_points`, `C100_norm`, `C100_states_of_the_bands`, `C100_three_axes_raise`, `C100_tight_binding_state`, `C100_whole_cell`, `C100_whole_cell_for_every_sampling_refuted`, `C101_bands`, `C101_exponential_raises`, `C101_gaussian`, `C101_gaussian_projection`, `C101_gaussian_raises`, `C101_single_band`, `C101_single_point`, `C101_single_point_state`, `C101_tight_binding`, `C101_tight_binding_three_axes_raise`, `C102_two_points`, `C102_two_points_few_states_refuted`, `C103_common_points`, `C103_dual_momentum_form`, `C103_dual_position_form`, `C103_interpolated`, `C103_interpolation_raises`, `C103_momentum_form`, `C103_position_form`, `C103_requested_shape_refuted`, `C103_single_axis_raises`, `C104_all_states_lossless`, `C104_apply_to_states`, `C104_eigenstate_basis`, `C104_inner_product_any_basis`, `C104_projection`, `C105_uneven_ends`, `C105_uneven_kept`, `C105_uneven_spacing_refuted`, `C105_uneven_values`, `C106_isf_at_times_raises`, `C106_rate_decomposition`, `C107_extracted_rates`, `C107_fast_and_slow_refuted`, `C107_fitted_parameters`, `C107_four_variable_contains_fey`, `C107_four_variable_model`, `C107_no_worse_than_start`, `C107_window_and_error_bars`, `C108_banded_raises`, `C108_banded_step`, `C108_dense_times`, `C108_qutip_rates_refuted`, `C109_diagonal_round_trip`, `C109_full_hamiltonian`, `C109_full_to_diagonal`, `C109_tight_binding_operator`, `C109_wannier_basis`, `C10_bases_orthonormal`, `C10_full_bases_complete`, `C10_round_trip`, `C110_axis_forms`, `C110_from_parent`, `C110_waves`, `C111_forms`, `C111_list_exists`, `C111_list_rows`, `C111_points_keep_total`, `C111_total_and_sign_refuted`, `C111_waves_total`, `C112_bloch_states`, `C112_eigenpairs_refuted`, `C112_entries`, `C112_picked_states_kept`, `C112_potential_position`, `C112_raises`, `C112_sample_frequencies`, `C112_wavepacket_position`, `C113_bloch_waves`, `C113_files`, `C113_flat_cell`, `C113_grid`, `C113_individual_bands`, `C113_localized`, `C113_operator`, `C113_other_number_of_projections`, `C113_symmetry_raises`, `C113_truncated_grid_refuted`, `C113_wave_vectors`, `C115_locations`, `C115_misplaced_refuted`, `C115_placed_states`, `C115_square_cell`, `C116_bridge_100`, `C116_bridge_111`, `C116_rounded_111`, `C116_symmetric_sites_100`, `C116_symmetric_sites_111`, `C118_free_bands`, `C118_hopping_chain`, `C118_localized_one_band`, `C118_localized_two_bands_refuted`, `C118_mass_of_band`, `C118_negative_axis`, `C118_single_sample_raises`, `C11_inner_product_preserved`, `C11_norm_preserved`, `C120_average_occupations`, `C120_bands_shift`, `C120_caller_unchanged_refuted`, `C120_nothing_drawn`, `C120_state_occupations`, `C120_thermal_again`, `C120_thermal_raises`, `C120_thermal_shift`, `C121_resolution`, `C121_symmetric_transform`, `C122_percentage_error`, `C122_sample`, `C122_sample_truncated`, `C122_sample_truncation_refuted`, `C122_truncation_full`, `C124_position_at_flat_index`, `C125_default_plane_refuted`, `C125_samples`, `C126_order`, `C126_round_trip`, `C126_ticks`, `C126_ticks_in_view`, `C126_ticks_outside_refuted`, `C126_ticks_symmetric`, `C129_bloch_hamiltonian_of_all_bands`, `C129_eigenstates_of_the_supercell`, `C129_elements_between_bloch_states`, `C129_even_points_refuted`, `C129_generated_wavepackets`, `C129_odd_numbers_of_points`, `C129_truncated_plane_waves`, `C12_intermediate_basis`, `C12_linear`, `C130_same_eigenvalues`, `C130_tight_binding_states`, `C130_wannier_hamiltonian_of_the_supercell`, `C131_components_along_eigenvectors`, `C131_evolution_through_bloch_states`, `C132_occupations`, `C133_fewer_states`, `C133_hamiltonian`, `C133_nested_bases`, `C133_within_complete`, `C133_within_explicit`, `C133_within_truncated`, `C134_order`, `C134_stability`, `C135_even_refuted`, `C135_opposite_fractions`, `C136_moved_potential`, `C137_normalized`, `C137_scaled`, `C137_shifted`, `C137_sum`, `C138_diagonal_list_operator`, `C138_difference_of_lists`, `C138_list_operator`, `C138_operator_diagonal_list`, `C138_operator_list`, `C138_sum_of_lists`, `C139_elements`, `C139_energies`, `C139_evolution`, `C13_product_vectors`, `C13_raises_iff_incompatible`, `C13_stacked_axis_by_axis`, `C140_between_levels`, `C140_free_particle`, `C141_bound`, `C141_continuous`, `C142_concave`, `C142_expectation_values`, `C143_even_refuted`, `C143_moved_state`, `C143_reversed_time`, `C144_overlaps`, `C144_scaled_and_shifted`, `C14_matrix_adjoint`, `C14_matrix_components`, `C14_matrix_elements`, `C14_matrix_products`, `C14_matrix_trace`, `C15_orthonormal_round_trip`, `C15_projection_contracts`, `C15_projection_formula`, `C15_projection_idempotent`, `C15_projection_self_adjoint`, `C17_commutator_diagonal_list`, `C17_commutator_diagonal_list_raises`, `C17_commutator_list`, `C18_expectation_basis_independent`, `C18_expectation_diagonal`, `C18_expectation_is_eigenvalue`, `C18_expectation_value`, `C20_displacements_matrix_x_along_axis`, `C20_displacements_x`, `C20_displacements_x_along_axis`, `C24_isotropic_fft_rebuild`, `C24_isotropic_fft_resampled`, `C24_stacked_fft_rebuild`, `C24_stacked_fft_resampled`, `C25_cosine_series`, `C25_cosine_series_any_period`, `C25_operators_exist`, `C25_real_fft_accepts_even`, `C25_real_fft_counts`, `C25_real_fft_not_rebuilt`, `C27_diagonal_truncation_keeps_largest`, `C27_diagonal_truncation_raises`, `C27_diagonal_truncation_selects`, `C27_full_truncation_by_modulus_refuted`, `C28_position_list_basis_refuted`, `C28_unfurl_inner_product`, `C28_unfurl_is_sum_of_bloch_waves`, `C28_unfurl_normalised`, `C28_unfurl_places_components`, `C29_generate_eigenstates`, `C29_position_list_all_zero`, `C29_sample_fractions`, `C29_sample_fractions_fundamental`, `C31_closest_states`, `C31_operator_exists`, `C31_operator_isometry`, `C31_operator_unitary`, `C31_overlap_positive`, `C31_too_many_projections`, `C33_constant_shift`, `C33_eigenvalues_above_potential`, `C33_energy_of_state`, `C33_free_particle`, `C33_hamiltonian_elements`, `C33_hermitian`, `C33_kinetic_energies`, `C34_continuous_potential_even_refuted`, `C34_continuous_potential_on_grid`, `C34_continuous_potential_periodic`, `C34_continuous_potential_real_odd`, `C37_eigenvalues_decay`, `C40_fey_110_singular`, `C41_banded_offsets`, `C41_banded_operator_error`, `C41_modulus_refuted`, `C44_fixed_points_in_first_zone_refuted`, `C44_folds_in_nearest_plane`, `C44_one_zone_at_a_time_refuted`, `C44_raises_outside_three_dimensions`, `C44_repeating_reaches_a_fixed_point`, `C45_from_state_vector`, `C46_skew_displacements_periodic_refuted`, `C47_displacements_matrix_x_refuted`, `C48_real_vector_other_basis`, `C48_real_vector_same_object_refuted`, `C49_util_vectors_are_states`, `C50_from_transformed`, `C50_into_transformed`, `C50_util_into_transformed_refuted`, `C51_bases`, `C51_exp_independent_of_decomposition`, `C51_exp_inverse`, `C51_exp_unitary`, `C52_apply_operator_to_state`, `C55_truncate_diagonal_kernel_has_one_entry`, `C56_temperature_correction`, `C56_temperature_correction_diagonal`, `C57_linear_gaussian_refuted`, `C57_linear_kernel`, `C57_linear_stacked`, `C57_lorentzian_mismatch`, `C58_asymmetric_refuted`, `C58_fitted_kernel`, `C58_symmetric_kernel`, `C61_bloch_states_are_bloch_waves`, `C61_bloch_states_exist`, `C61_bloch_states_inner_products`, `C61_state_vector_index_raises`, `C61_state_vector_is_bloch_wave`, `C61_unfurl_adds_bloch_states`, `C62_wannier_orthonormal`, `C62_wannier_states_are_translated`, `C62_wannier_truncated_refuted`, `C63_to_shape_label_refuted`, `C64_full_hamiltonian_elements`, `C64_full_hamiltonian_order_refuted`, `C64_full_hamiltonian_transposed_refuted`, `C65_derivative_axis_out_of_range`, `C67_simplified_collapse_rates`, `C68_scattering_average`, `C68_scattering_bounds`, `C70_components_are_densities`, `C70_distance_is_projection`, `C70_potential_minimum`, `C70_potential_value`, `C70_zero_at_origin_refuted`, `C71_coefficients_exist`, `C71_complex_states_refuted`, `C71_explicit_elements`, `C71_hermitian`, `C71_real_states`, `C72_as_fundamental`, `C72_as_fundamental_raises`, `C72_complex_states_refuted`, `C72_elements`, `C72_hermitian`, `C72_real_states`, `C72_too_few_points`, `C73_bloch`, `C73_plane_waves`, `C74_default_axes`, `C74_default_order_refuted`, `C74_interpolation`, `C74_passes_through`, `C74_plane_waves`, `C75_even_axis`, `C75_even_axis_refuted`, `C75_half_spectrum_padding`, `C75_interpolation`, `C75_one_axis`, `C75_one_axis_passes_through`, `C75_passes_through`, `C75_symmetric`, `C76_any_eigenvalues`, `C76_components`, `C76_diagonal_covariance`, `C76_diagonal_samples`, `C76_full_covariance`, `C76_full_samples`, `C76_kernel_covariance`, `C76_kernel_samples`, `C76_mismatch_raises`, `C76_negative_eigenvalue_refuted`, `C77_axis_kernel_raises`, `C77_diagonal_kernel`, `C77_distance_along_axis`, `C77_distance_unique`, `C77_gaussian_one_axis`, `C77_isotropic_kernel`, `C77_one_point`, `C77_rotated_refuted`, `C77_unstacked_raises`, `C78_gaussian_parameters`, `C78_lorentzian_kernel`, `C78_lorentzian_parameters`, `C80_any_operators`, `C80_converted_operators`, `C80_diagonal_as_full`, `C80_diagonal_conversion`, `C80_diagonal_rectangular_raises`, `C80_intermediate_basis`, `C80_isotropic_refuted`, `C80_isotropic_same_basis`, `C80_kernel_conversion`, `C80_positive`, `C80_rectangular_refuted`, `C80_round_trip`, `C80_same_basis`, `C81_opposite_neighbour`, `C81_overlaps_of_a_sample_with_itself`, `C81_written_overlaps`, `C81_written_projections`, `C84_conversion_keeps_overlaps`, `C84_position_conversion`, `C84_wavepacket_list_overlap`, `C84_wavepacket_overlap`, `C84_wavepacket_overlap_sum`, `C85_angle_average`, `C85_angle_average_biased`, `C85_angle_average_constant`, `C85_at_reciprocal_vectors`, `C85_at_zero`, `C85_bounded`, `C85_conjugate`, `C85_flat_all_terms`, `C85_flat_interpolator`, `C85_flat_largest_terms`, `C85_fractions_equal_axes`, `C85_fractions_unequal_refuted`, `C85_momentum_coefficient`, `C86_basis_states`, `C86_weighted_converts`, `C87_eigenvalue_products_ignore_bases_refuted`, `C87_elementwise`, `C87_elementwise_lengths`, `C87_entries_are_single_products`, `C87_gram_matrix_positive`, `C87_inner_product_basis_independent`, `C87_inner_products`, `C87_inner_products_adjoint`, `C87_normalization`, `C88_free_states`, `C88_free_states_most_localized`, `C88_free_states_raise`, `C88_free_states_translated`, `C88_from_probability`, `C88_from_probability_centre`, `C89_integrand`, `C89_potential`, `C89_rate_nan`, `C91_choice`, `C91_normalised_refuted`, `C91_one_realization_raises`, `C91_phase_only`, `C91_round`, `C91_succeeds`, `C91_trajectories`, `C91_zero_states_raise`, `C92_isf`, `C92_raises`, `C92_times`, `C93_periodic_bound`, `C93_periodic_direction`, `C93_periodic_move`, `C93_periodic_position`, `C94_average_momentum`, `C94_average_position`, `C94_momentum_boost`, `C94_operators_raise`, `C94_probabilities`, `C94_real_at_rest_refuted`, `C94_real_momentum`, `C95_coordinates`, `C95_coordinates_truncated_refuted`, `C95_max_idx`, `C95_momentum_projection`, `C95_projection_defined`, `C95_projection_inner`, `C95_projection_orientation`, `C96_coordinates_length`, `C96_momentum_entries_refuted`, `C96_momentum_length`, `C96_path_length`, `C96_path_straight`, `C96_wrapped_length`, `C96_wrapped_periodic`, `C96_wrapped_shortest`, `C98_agrees_with_explicit_states`, `C98_all_bands_are_complete`, `C98_from_is_projection`, `C98_into_is_superposition`, `C98_into_raises_when_truncated`, `C98_round_trip`, `C99_all_eigenstates_raises`, `C99_all_states_are_the_bloch_waves`, `C99_energy_bounds`, `C99_energy_of_a_bloch_wave`, `C99_energy_of_a_state`, `C99_position_localisation_raises`

## Set B (141 theorems)

* `ClassicalDedekindReals.sig_forall_dec`
* `ClassicalDedekindReals.sig_not_dec`
* `Classical_Prop.classic`
* `FunctionalExtensionality.functional_extensionality_dep`

`C101_gaussian_centred_at_origin_refuted`, `C102_max_point_raises`, `C102_two_point_max`, `C102_two_point_max_flat_refuted`, `C102_two_points_raise`, `C106_isf_in_the_basis_of_the_states`, `C106_probabilities_at_times`, `C107_double_exponential`, `C107_extraction_exists`, `C114_corrected_operators`, `C114_detailed_balance`, `C114_effective_transitions`, `C114_missing_transition_refuted`, `C114_transitions`, `C115_single_axis_raises`, `C117_default_in_momentum`, `C117_default_in_position`, `C117_default_line_in_momentum_refuted`, `C117_line_in_momentum`, `C117_line_in_position`, `C117_line_of_indices`, `C117_mesh_in_momentum`, `C117_mesh_in_position`, `C117_phase_at_end_refuted`, `C117_single_point_raises`, `C117_wrong_index_raises`, `C118_free_particle`, `C119_against_frequency`, `C119_against_frequency_exact`, `C119_against_index`, `C119_against_time`, `C119_all_against_time`, `C119_average`, `C119_average_imaginary_refuted`, `C119_frequency_phase_refuted`, `C119_frequency_raises`, `C119_split_against_frequency`, `C119_split_against_time`, `C120_eigenvalues_sorted`, `C120_lower_bands_fuller`, `C120_thermal_bands`, `C120_thermal_occupations`, `C120_total_occupation`, `C120_total_raises`, `C121_downward_axis_refuted`, `C121_elements`, `C121_harmonic`, `C121_hermitian`, `C121_own_basis`, `C122_eigenvalues`, `C122_mesh`, `C122_truncation_bounds_error`, `C123_minimum_along_path`, `C123_minimum_in_momentum_refuted`, `C123_potential_along_path`, `C123_state_along_path`, `C124_bragg_points`, `C124_first_zone_refuted`, `C124_momenta`, `C124_momentum_plane`, `C124_momentum_plane_refuted`, `C124_points`, `C124_points_raise`, `C124_position_at_index`, `C124_position_at_index_refuted`, `C124_position_plane`, `C124_zone_points`, `C125_components`, `C125_free_integral`, `C125_free_particle`, `C125_mesh`, `C125_momentum_lines`, `C125_position_lines`, `C125_raise`, `C125_uneven_lines`, `C132_commuting_operators`, `C132_energy`, `C132_rate_of_change`, `C26_axis_kernels`, `C26_round_trip_iff_product`, `C32_flat_index_raises`, `C32_localize_fixes_phase`, `C35_power_zero_raises`, `C35_truncation_shape`, `C35_undo_truncation_first_power`, `C35_undo_truncation_higher_powers`, `C39_diagonal_hamiltonian`, `C39_schrodinger_evolution`, `C40_fey_110`, `C40_fey_112bar`, `C44_zone_number_decreases`, `C57_cosine_coefficients`, `C57_eleven_terms_refuted`, `C57_gaussian`, `C57_gaussian_stacked`, `C57_periodic_operators`, `C57_stacked_self_correlation`, `C58_stacked`, `C58_stacked_product`, `C60_fundamental_axis_kernels`, `C60_real_stacked_fft`, `C60_real_stacked_fft_product`, `C65_derivative_of_potential`, `C66_equilibrium`, `C66_simulation_solves_rate_equation`, `C69_compiled_hermite_values`, `C69_compiled_hermite_values_refuted`, `C69_compiled_states_agree`, `C69_compiled_states_normalised_refuted`, `C69_orthonormal`, `C69_solves_the_oscillator`, `C71_oscillator_elements`, `C77_gaussian_two_axes_refuted`, `C78_documented_minimum_refuted`, `C78_gaussian_kernel`, `C78_isotropic_kernel`, `C79_effective_operators`, `C79_gaussian_operators`, `C79_negative_correlation`, `C79_positive_refuted`, `C89_fermi_occupation`, `C89_occupation_increasing`, `C89_occupation_integral`, `C89_potential_algebra`, `C89_potential_integral`, `C89_rate`, `C92_commented_isf_refuted`, `C92_isf_facts`, `C93_average_position`, `C93_average_position_more_dimensions`, `C93_average_position_moves`, `C93_average_position_of_point`, `C93_restored_positions`, `C94_coherent_coordinates`, `C94_coherent_coordinates_scaled`, `C94_spread`, `C94_spread_zero`, `C97_documented_refuted`, `C97_matrix`, `C97_middle`, `C97_twice_average`

## Set C (112 theorems)

* `ClassicalDedekindReals.sig_forall_dec`
* `FunctionalExtensionality.functional_extensionality_dep`

`C06_wrap_x_point`, `C06_wrap_x_point_unique`, `C101_evenly_spaced_orthonormal`, `C101_evenly_spaced_repeated`, `C104_eigenvectors_rebuild`, `C105_first_axis_refuted`, `C105_last_axis`, `C105_lowest_column`, `C105_other_axes`, `C105_stand_in`, `C106_equilibrium_isf_raises`, `C106_probability_of_a_density_matrix`, `C107_starts`, `C109_diagonal_applied`, `C109_wannier_hamiltonian`, `C110_from_shape_default`, `C120_probability_per_band`, `C120_probability_per_site`, `C123_minimum_path`, `C124_frame_unique`, `C16_diagonal_as_full`, `C16_round_trip`, `C17_anti_commutator_hermitian`, `C17_antisymmetric`, `C17_commutator_anti_hermitian`, `C17_jacobi`, `C17_linear`, `C18_has_eigenstates`, `C18_rebuilds_operator`, `C20_wrap_displacements`, `C21_diagonal_round_trip`, `C21_full_from_diagonal`, `C21_full_round_trip`, `C22_isotropic_check`, `C22_isotropic_from_diagonal`, `C22_isotropic_from_diagonal_stacked`, `C22_isotropic_from_operators_stacked`, `C22_isotropic_of_operators`, `C22_round_trip_check`, `C22_round_trip_reverses`, `C22_stacked_round_trip`, `C23_diagonal_eigenvalue_operators_rebuild`, `C23_eigenvalue_operators_rebuild`, `C23_kernel_of_full_operators`, `C23_rectangular_refuted`, `C30_hamiltonian_elements_refuted`, `C30_hamiltonian_hermitian`, `C30_hamiltonian_is_transposed`, `C30_hamiltonian_trace`, `C30_identity_operator_refuted`, `C30_identity_operator_square`, `C30_localized_orthonormal`, `C36_normalize_potential`, `C37_columns_sum_to_zero`, `C37_rate_equation_matrix`, `C38_entries_sum_the_hops`, `C38_rates_of_the_function`, `C38_total_rates`, `C38_translation_invariant`, `C41_diagonals_rebuild`, `C45_average_over_axes`, `C45_average_over_list`, `C45_average_stays_normalised`, `C45_sum_probabilities`, `C45_sum_probability`, `C45_sum_probability_all_axes`, `C45_sum_stays_a_probability`, `C51_function_eigenvectors`, `C51_function_identity`, `C51_function_independent_of_decomposition`, `C51_function_product`, `C53_average_default_axes`, `C53_average_list_over_axes`, `C53_average_over_axes`, `C53_sum_over_axes`, `C55_truncate_kernel_keeping_all`, `C59_nonnegative_eigenvalues_positive`, `C59_real_eigenvalues_hermitian`, `C60_operators_from_axis`, `C63_fractions_identify_samples`, `C63_to_shape_keeps_fractions`, `C67_collapse_rates`, `C67_collapse_rates_refuted`, `C82_individual_bands`, `C82_localized_states`, `C84_shift_other_axis_refuted`, `C84_unshifted_overlaps`, `C86_along_axes_order_refuted`, `C86_average`, `C86_average_default`, `C86_dual_vectors`, `C87_eigenvalue_products`, `C88_single_points`, `C88_single_points_orthonormal_refuted`, `C90_bloch_fractions`, `C90_empty_raises`, `C90_explicit_span`, `C90_fundamental_times`, `C90_samples`, `C90_span`, `C90_times`, `C92_average_normalized_drift`, `C92_average_normalized_drift_at_rest`, `C92_average_normalized_drift_translation_refuted`, `C92_displacement_facts`, `C92_displacements`, `C92_documented_offsets_refuted`, `C92_normalized_average_drift`, `C92_normalized_average_drift_uniform`, `C92_offset_products`, `C92_offset_products_complex`, `C99_average_eigenvalues`

## Set D (101 theorems)

Closed under the global context.

`C01_pad_ft_points_frequencies`, `C01_pad_ft_points_raises`, `C02_pad_ft_points_round_trip`, `C02_pad_then_truncate_identity`, `C03_nk_points`, `C03_nk_points_each_once`, `C04_flat_index_clip`, `C04_flat_index_raises_iff`, `C04_flat_index_wrap`, `C04_flat_index_wrap_periodic`, `C04_flat_of_stacked`, `C04_stacked_nk_points`, `C04_stacked_nx_points`, `C04_stacked_of_flat`, `C05_wrap_idempotent`, `C05_wrap_index_around_origin`, `C05_wrap_periodic`, `C07_get_data_in_axes`, `C07_position_exists`, `C08_pad_sample_axis`, `C08_sample_projection`, `C08_sample_round_trip`, `C08_samples_distinct`, `C08_truncate_sample_axis`, `C09_signed_frequencies`, `C100_each_point_once`, `C104_not_square_raises`, `C104_stacked_shape`, `C110_forms_of_axes`, `C110_fundamental_forms`, `C110_fundamental_forms_raise`, `C110_single_points`, `C110_with_shape_raises`, `C111_along_default_raises`, `C111_along_one_axis`, `C111_along_raises`, `C122_eigenvalues_kept_refuted`, `C127_shape_unique`, `C128_along`, `C128_new_axis`, `C16_from_iter`, `C16_from_iter_raises`, `C16_full_as_diagonal`, `C16_into_iter`, `C16_select_diagonal_operator`, `C16_select_diagonal_operator_raises`, `C16_select_operator`, `C16_select_operator_raises`, `C19_displacements_matrix_nx`, `C19_displacements_matrix_nx_stacked`, `C19_displacements_symmetric`, `C22_diagonal_from_isotropic`, `C22_diagonal_from_isotropic_stacked`, `C28_every_component_has_a_slot`, `C28_every_slot_once`, `C42_all_finished`, `C42_evaluated_once`, `C42_killed_while_saving`, `C42_last_write_wins`, `C42_missing_directory`, `C42_none_is_never_cached`, `C42_one_writer`, `C42_raising_function`, `C42_returned_values_are_right`, `C42_shared_path_refuted`, `C42_two_writers_refuted`, `C42_unpicklable_result`, `C43_broken_file`, `C43_npy_suffix`, `C43_other_suffix`, `C45_get_probability`, `C53_average_denominator`, `C54_as_flat_operator_size`, `C63_get_wavepacket`, `C63_into_iter`, `C63_to_shape_accepts`, `C63_to_shape_raises`, `C81_read_neighbours`, `C83_exchange`, `C83_exchange_merges`, `C83_representative_equivalent`, `C83_representative_of_one_operation`, `C83_representative_unique_refuted`, `C83_reversal`, `C84_cache_names_distinct`, `C84_cache_names_given`, `C84_momentum_conversion_raises`, `C84_single_overlap`, `C85_flat_interpolator_raises`, `C86_along_axes`, `C86_along_axes_any_order`, `C86_along_axes_default`, `C86_collect`, `C86_get_state_vector`, `C86_iteration`, `C86_out_of_range_raises`, `C86_round_trip`, `C86_stacked_index`, `C98_states_at_momentum`, `C99_slice_keeps_eigenvalues`, `C99_wavepacket_at_band`

## Set E (45 theorems)

* `ClassicalDedekindReals.sig_forall_dec`

`C101_evenly_spaced`, `C101_evenly_spaced_raises`, `C104_eigenstate_basis_raises`, `C106_jump_matrix_raises`, `C108_collapse_from_function`, `C110_from_shape`, `C110_momentum_from_resolution`, `C112_offsets`, `C113_cell_raises`, `C127_grid`, `C127_grid_refused`, `C127_heights_refuted`, `C127_uneven`, `C127_uneven_refused`, `C16_as_diagonal_operator`, `C16_as_operator_bases`, `C16_single_operator_round_trip`, `C17_anti_commutator_entries`, `C17_commutator_entries`, `C21_diagonal_from_full`, `C23_diagonal_kernel`, `C23_full_kernel`, `C26_isotropic_from_axis`, `C27_full_truncation_keeps_largest_signed`, `C29_generate_raises`, `C30_diagonal_localized`, `C30_localized_combines_bands`, `C38_number_of_bands`, `C45_sum_probabilities_default_axes`, `C45_sum_probability_twice_raises`, `C52_add_operator`, `C52_bases`, `C52_commutator_bases`, `C52_matmul_operator`, `C52_product_plus_flat_raises`, `C53_negative_axis_keeps_basis`, `C63_iter_round_trip`, `C63_iterator_drops_first`, `C82_read_operator`, `C84_shift_first_axis`, `C84_state_overlaps`, `C86_weighted`, `C86_weighted_wrong_length_raises`, `C88_single_point`, `C88_single_points_raise_refuted`


{
 "claims": [
  {
   "property": "C01",
   "status": "proved",
   "theorems": [
    "C01_pad_ft_points_frequencies",
    "C01_pad_ft_points_raises"
   ],
   "note": ""
  },
  {
   "property": "C02",
   "status": "proved",
   "theorems": [
    "C02_pad_ft_points_round_trip",
    "C02_pad_then_truncate_identity"
   ],
   "note": ""
  },
  {
   "property": "C03",
   "status": "proved",
   "theorems": [
    "C03_nk_points",
    "C03_nk_points_each_once"
   ],
   "note": ""
  },
  {
   "property": "C04",
   "status": "proved",
   "theorems": [
    "C04_flat_of_stacked",
    "C04_stacked_of_flat",
    "C04_flat_index_raises_iff",
    "C04_flat_index_wrap",
    "C04_flat_index_wrap_periodic",
    "C04_flat_index_clip",
    "C04_stacked_nx_points",
    "C04_stacked_nk_points"
   ],
   "note": ""
  },
  {
   "property": "C05",
   "status": "proved",
   "theorems": [
    "C05_wrap_index_around_origin",
    "C05_wrap_periodic",
    "C05_wrap_idempotent"
   ],
   "note": ""
  },
  {
   "property": "C06",
   "status": "proved",
   "theorems": [
    "C06_wrap_x_point",
    "C06_wrap_x_point_unique"
   ],
   "note": ""
  },
  {
   "property": "C07",
   "status": "proved",
   "theorems": [
    "C07_get_data_in_axes",
    "C07_position_exists"
   ],
   "note": ""
  },
  {
   "property": "C08",
   "status": "proved",
   "theorems": [
    "C08_pad_sample_axis",
    "C08_truncate_sample_axis",
    "C08_sample_round_trip",
    "C08_sample_projection",
    "C08_samples_distinct"
   ],
   "note": ""
  },
  {
   "property": "C09",
   "status": "proved",
   "theorems": [
    "C09_convert_is_projection",
    "C09_convert_is_projection_distinct",
    "C09_momentum_route_agrees",
    "C09_signed_frequencies",
    "C09_convert_dual",
    "C09_self_conversion_differs_refuted"
   ],
   "note": ""
  },
  {
   "property": "C10",
   "status": "proved",
   "theorems": [
    "C10_round_trip",
    "C10_full_bases_complete",
    "C10_bases_orthonormal"
   ],
   "note": ""
  },
  {
   "property": "C11",
   "status": "proved",
   "theorems": [
    "C11_inner_product_preserved",
    "C11_norm_preserved"
   ],
   "note": ""
  },
  {
   "property": "C12",
   "status": "proved",
   "theorems": [
    "C12_intermediate_basis",
    "C12_linear"
   ],
   "note": ""
  },
  {
   "property": "C13",
   "status": "proved",
   "theorems": [
    "C13_stacked_axis_by_axis",
    "C13_product_vectors",
    "C13_raises_iff_incompatible"
   ],
   "note": ""
  },
  {
   "property": "C14",
   "status": "proved",
   "theorems": [
    "C14_matrix_products",
    "C14_matrix_adjoint",
    "C14_matrix_trace",
    "C14_matrix_elements",
    "C14_matrix_components"
   ],
   "note": ""
  },
  {
   "property": "C15",
   "status": "proved",
   "theorems": [
    "C15_orthonormal_round_trip",
    "C15_projection_formula",
    "C15_projection_idempotent",
    "C15_projection_self_adjoint",
    "C15_projection_contracts"
   ],
   "note": ""
  },
  {
   "property": "C16",
   "status": "proved",
   "theorems": [
    "C16_diagonal_as_full",
    "C16_full_as_diagonal",
    "C16_round_trip",
    "C16_single_operator_round_trip",
    "C16_select_operator",
    "C16_select_operator_raises",
    "C16_into_iter",
    "C16_from_iter",
    "C16_from_iter_raises",
    "C16_select_diagonal_operator",
    "C16_select_diagonal_operator_raises",
    "C16_as_diagonal_operator",
    "C16_as_operator_bases"
   ],
   "note": ""
  },
  {
   "property": "C17",
   "status": "proved",
   "theorems": [
    "C17_commutator_entries",
    "C17_anti_commutator_entries",
    "C17_antisymmetric",
    "C17_jacobi",
    "C17_linear",
    "C17_commutator_anti_hermitian",
    "C17_anti_commutator_hermitian",
    "C17_commutator_list",
    "C17_commutator_diagonal_list",
    "C17_commutator_diagonal_list_raises"
   ],
   "note": ""
  },
  {
   "property": "C18",
   "status": "proved",
   "theorems": [
    "C18_rebuilds_operator",
    "C18_has_eigenstates",
    "C18_expectation_is_eigenvalue",
    "C18_expectation_value",
    "C18_expectation_basis_independent",
    "C18_expectation_diagonal"
   ],
   "note": ""
  },
  {
   "property": "C19",
   "status": "proved",
   "theorems": [
    "C19_displacements_matrix_nx",
    "C19_displacements_symmetric",
    "C19_displacements_matrix_nx_stacked"
   ],
   "note": ""
  },
  {
   "property": "C20",
   "status": "proved",
   "theorems": [
    "C20_wrap_displacements",
    "C20_displacements_x",
    "C20_displacements_x_along_axis",
    "C20_displacements_matrix_x_along_axis"
   ],
   "note": ""
  },
  {
   "property": "C21",
   "status": "proved",
   "theorems": [
    "C21_full_from_diagonal",
    "C21_diagonal_from_full",
    "C21_diagonal_round_trip",
    "C21_full_round_trip"
   ],
   "note": ""
  },
  {
   "property": "C22",
   "status": "proved",
   "theorems": [
    "C22_diagonal_from_isotropic_stacked",
    "C22_isotropic_from_diagonal_stacked",
    "C22_stacked_round_trip",
    "C22_diagonal_from_isotropic",
    "C22_isotropic_from_diagonal",
    "C22_isotropic_check",
    "C22_round_trip_reverses",
    "C22_round_trip_check",
    "C22_isotropic_of_operators",
    "C22_isotropic_from_operators_stacked"
   ],
   "note": "finding: the one-dimensional inverse reverses the kernel"
  },
  {
   "property": "C23",
   "status": "proved",
   "theorems": [
    "C23_full_kernel",
    "C23_diagonal_kernel",
    "C23_eigenvalue_operators_rebuild",
    "C23_diagonal_eigenvalue_operators_rebuild",
    "C23_rectangular_refuted",
    "C23_kernel_of_full_operators"
   ],
   "note": "np.linalg.eigh is an argument constrained by A = V diag(l) V^dagger; finding: rectangular bases are not rebuilt"
  },
  {
   "property": "C24",
   "status": "proved",
   "theorems": [
    "C24_isotropic_fft_rebuild",
    "C24_isotropic_fft_resampled",
    "C24_stacked_fft_rebuild",
    "C24_stacked_fft_resampled"
   ],
   "note": "includes the resampled operators when fundamental_n divides the size"
  },
  {
   "property": "C25",
   "status": "proved",
   "theorems": [
    "C25_cosine_series",
    "C25_cosine_series_any_period",
    "C25_operators_exist",
    "C25_real_fft_accepts_even",
    "C25_real_fft_counts",
    "C25_real_fft_not_rebuilt"
   ],
   "note": "finding: real_isotropic_fft operators and eigenvalues have different counts"
  },
  {
   "property": "C26",
   "status": "proved",
   "theorems": [
    "C26_isotropic_from_axis",
    "C26_axis_kernels",
    "C26_round_trip_iff_product"
   ],
   "note": ""
  },
  {
   "property": "C27",
   "status": "proved",
   "theorems": [
    "C27_diagonal_truncation_selects",
    "C27_diagonal_truncation_keeps_largest",
    "C27_diagonal_truncation_raises",
    "C27_full_truncation_keeps_largest_signed",
    "C27_full_truncation_by_modulus_refuted"
   ],
   "note": "np.argsort is an argument constrained to return a sorting permutation; finding: full version sorts by signed eigenvalue"
  },
  {
   "property": "C28",
   "status": "proved",
   "theorems": [
    "C28_unfurl_places_components",
    "C28_every_slot_once",
    "C28_every_component_has_a_slot",
    "C28_unfurl_is_sum_of_bloch_waves",
    "C28_unfurl_inner_product",
    "C28_unfurl_normalised",
    "C28_position_list_basis_refuted"
   ],
   "note": "finding: a position-type list basis mixes the samples"
  },
  {
   "property": "C29",
   "status": "proved",
   "theorems": [
    "C29_sample_fractions",
    "C29_sample_fractions_fundamental",
    "C29_position_list_all_zero",
    "C29_generate_eigenstates",
    "C29_generate_raises"
   ],
   "note": "scipy.linalg.eigh is an argument constrained by eigh_ok, shown to be satisfiable; finding: a position-type list basis of odd length gets fraction zero for every sample"
  },
  {
   "property": "C30",
   "status": "proved",
   "theorems": [
    "C30_localized_combines_bands",
    "C30_localized_orthonormal",
    "C30_hamiltonian_hermitian",
    "C30_hamiltonian_trace",
    "C30_hamiltonian_is_transposed",
    "C30_hamiltonian_elements_refuted",
    "C30_diagonal_localized",
    "C30_identity_operator_square",
    "C30_identity_operator_refuted"
   ],
   "note": "finding: the localised Hamiltonian is the transpose of the matrix of H; the identity operator takes its row basis from the samples"
  },
  {
   "property": "C31",
   "status": "proved",
   "theorems": [
    "C31_operator_exists",
    "C31_operator_isometry",
    "C31_operator_unitary",
    "C31_too_many_projections",
    "C31_overlap_positive",
    "C31_closest_states"
   ],
   "note": "scipy.linalg.svd is an argument constrained to return a thin singular value decomposition, shown to exist; finding: more projections than bands give non-orthonormal states"
  },
  {
   "property": "C32",
   "status": "proved",
   "theorems": [
    "C32_localize_fixes_phase",
    "C32_flat_index_raises"
   ],
   "note": "the point is given; the search for a maximum and the two-point variants are not modelled"
  },
  {
   "property": "C33",
   "status": "proved",
   "theorems": [
    "C33_hamiltonian_elements",
    "C33_kinetic_energies",
    "C33_hermitian",
    "C33_energy_of_state",
    "C33_eigenvalues_above_potential",
    "C33_constant_shift",
    "C33_free_particle"
   ],
   "note": "exact arithmetic; the python inverse of the lattice vectors is assumed exact"
  },
  {
   "property": "C34",
   "status": "proved",
   "theorems": [
    "C34_continuous_potential_on_grid",
    "C34_continuous_potential_periodic",
    "C34_continuous_potential_real_odd",
    "C34_continuous_potential_even_refuted"
   ],
   "note": "finding: the returned function is complex between grid points for even axes"
  },
  {
   "property": "C35",
   "status": "proved",
   "theorems": [
    "C35_undo_truncation_first_power",
    "C35_undo_truncation_higher_powers",
    "C35_truncation_shape",
    "C35_power_zero_raises"
   ],
   "note": "one real energy at a time; negative arguments of the roots for n >= 2 not modelled; finding: undo is wrong for n >= 2"
  },
  {
   "property": "C36",
   "status": "proved",
   "theorems": [
    "C36_normalize_potential"
   ],
   "note": "values without nan"
  },
  {
   "property": "C37",
   "status": "proved",
   "theorems": [
    "C37_rate_equation_matrix",
    "C37_columns_sum_to_zero",
    "C37_eigenvalues_decay"
   ],
   "note": "finding: the diagonal of the matrix passed in is set to zero"
  },
  {
   "property": "C38",
   "status": "proved",
   "theorems": [
    "C38_entries_sum_the_hops",
    "C38_rates_of_the_function",
    "C38_translation_invariant",
    "C38_total_rates",
    "C38_number_of_bands"
   ],
   "note": "finding: the default n_bands only works for a single band"
  },
  {
   "property": "C39",
   "status": "proved",
   "theorems": [
    "C39_schrodinger_evolution",
    "C39_diagonal_hamiltonian"
   ],
   "note": "scipy.linalg.eigh is an argument constrained by eigh_ok; exact arithmetic, the two numerical assertions are not modelled; solve_schrodinger_equation (qutip) not modelled"
  },
  {
   "property": "C40",
   "status": "proved",
   "theorems": [
    "C40_fey_112bar",
    "C40_fey_110",
    "C40_fey_110_singular"
   ],
   "note": "numpy divides by zero silently where the model returns None"
  },
  {
   "property": "C41",
   "status": "proved",
   "theorems": [
    "C41_diagonals_rebuild",
    "C41_banded_operator_error",
    "C41_banded_offsets",
    "C41_modulus_refuted"
   ],
   "note": "finding: an element whose modulus is above the threshold can be lost"
  },
  {
   "property": "C42",
   "status": "proved",
   "theorems": [
    "C42_returned_values_are_right",
    "C42_last_write_wins",
    "C42_shared_path_refuted",
    "C42_evaluated_once",
    "C42_killed_while_saving",
    "C42_unpicklable_result",
    "C42_raising_function",
    "C42_missing_directory",
    "C42_none_is_never_cached",
    "C42_one_writer",
    "C42_two_writers_refuted",
    "C42_all_finished"
   ],
   "note": "the function is deterministic; pickle is an argument constrained to round trip and to reject proper prefixes; finding: truncated files poison the cache, None is never cached, two writers can produce a wrong value"
  },
  {
   "property": "C43",
   "status": "proved",
   "theorems": [
    "C43_npy_suffix",
    "C43_other_suffix",
    "C43_broken_file"
   ],
   "note": "np.save/np.load are arguments constrained in the same way; finding: paths without .npy never hit, object arrays raise on the second call"
  },
  {
   "property": "C44",
   "status": "proved",
   "theorems": [
    "C44_folds_in_nearest_plane",
    "C44_zone_number_decreases",
    "C44_repeating_reaches_a_fixed_point",
    "C44_one_zone_at_a_time_refuted",
    "C44_fixed_points_in_first_zone_refuted",
    "C44_raises_outside_three_dimensions"
   ],
   "note": "findings: zones can be skipped, fixed points outside the first zone of skew lattices, raises unless three axes"
  },
  {
   "property": "C45",
   "status": "proved",
   "theorems": [
    "C45_from_state_vector",
    "C45_sum_probability",
    "C45_sum_stays_a_probability",
    "C45_sum_probability_all_axes",
    "C45_sum_probability_twice_raises",
    "C45_sum_probabilities",
    "C45_sum_probabilities_default_axes",
    "C45_average_over_list",
    "C45_average_stays_normalised",
    "C45_average_over_axes",
    "C45_get_probability"
   ],
   "note": "sum_probabilities default axis and plain tuple basis are recorded as findings; weights argument not modelled"
  },
  {
   "property": "C46",
   "status": "proved",
   "theorems": [
    "C46_skew_displacements_periodic_refuted"
   ],
   "note": ""
  },
  {
   "property": "C47",
   "status": "proved",
   "theorems": [
    "C47_displacements_matrix_x_refuted"
   ],
   "note": ""
  },
  {
   "property": "C48",
   "status": "proved",
   "theorems": [
    "C48_real_vector_other_basis",
    "C48_real_vector_same_object_refuted"
   ],
   "note": ""
  },
  {
   "property": "C49",
   "status": "proved",
   "theorems": [
    "C49_util_vectors_are_states"
   ],
   "note": ""
  },
  {
   "property": "C50",
   "status": "proved",
   "theorems": [
    "C50_into_transformed",
    "C50_from_transformed",
    "C50_util_into_transformed_refuted"
   ],
   "note": ""
  },
  {
   "property": "C51",
   "status": "proved",
   "theorems": [
    "C51_function_independent_of_decomposition",
    "C51_function_eigenvectors",
    "C51_function_product",
    "C51_function_identity",
    "C51_exp_independent_of_decomposition",
    "C51_exp_inverse",
    "C51_exp_unitary",
    "C51_bases"
   ],
   "note": "np.linalg.eig / inv are arguments constrained by their defining equations"
  },
  {
   "property": "C52",
   "status": "proved",
   "theorems": [
    "C52_add_operator",
    "C52_matmul_operator",
    "C52_product_plus_flat_raises",
    "C52_apply_operator_to_state",
    "C52_bases",
    "C52_commutator_bases"
   ],
   "note": "finding: product plus flat operator raises"
  },
  {
   "property": "C53",
   "status": "proved",
   "theorems": [
    "C53_sum_over_axes",
    "C53_average_over_axes",
    "C53_average_denominator",
    "C53_average_list_over_axes",
    "C53_average_default_axes",
    "C53_negative_axis_keeps_basis"
   ],
   "note": "findings: default axes and negative axes; weights argument not modelled"
  },
  {
   "property": "C54",
   "status": "proved",
   "theorems": [
    "C54_as_flat_operator_size"
   ],
   "note": "finding"
  },
  {
   "property": "C55",
   "status": "proved",
   "theorems": [
    "C55_truncate_kernel_keeping_all",
    "C55_truncate_diagonal_kernel_has_one_entry"
   ],
   "note": "finding: truncate_diagonal_noise_kernel collapses to one entry"
  },
  {
   "property": "C56",
   "status": "proved",
   "theorems": [
    "C56_temperature_correction",
    "C56_temperature_correction_diagonal"
   ],
   "note": ""
  },
  {
   "property": "C57",
   "status": "proved",
   "theorems": [
    "C57_linear_stacked",
    "C57_cosine_coefficients",
    "C57_periodic_operators",
    "C57_gaussian",
    "C57_eleven_terms_refuted",
    "C57_gaussian_stacked",
    "C57_stacked_self_correlation",
    "C57_lorentzian_mismatch",
    "C57_linear_kernel",
    "C57_linear_gaussian_refuted"
   ],
   "note": "Exact arithmetic except that the matrix of integer powers wraps at 64 bits as numpy's does. The linear solver is any function that returns a solution of every invertible system. Findings: overflow from the eleventh term on; the lorentzian eigenvalues do not match the operators; the linear operators do not represent a gaussian of the distance; the stacked operators have amplitude a^(2 ndim)."
  },
  {
   "property": "C58",
   "status": "proved",
   "theorems": [
    "C58_fitted_kernel",
    "C58_symmetric_kernel",
    "C58_asymmetric_refuted",
    "C58_stacked",
    "C58_stacked_product"
   ],
   "note": "Exact arithmetic. The fit is any function whose result minimises the weighted squared error; one is constructed."
  },
  {
   "property": "C59",
   "status": "proved",
   "theorems": [
    "C59_real_eigenvalues_hermitian",
    "C59_nonnegative_eigenvalues_positive"
   ],
   "note": ""
  },
  {
   "property": "C60",
   "status": "proved",
   "theorems": [
    "C60_operators_from_axis",
    "C60_real_stacked_fft",
    "C60_real_stacked_fft_product",
    "C60_fundamental_axis_kernels"
   ],
   "note": ""
  },
  {
   "property": "C61",
   "status": "proved",
   "theorems": [
    "C61_state_vector_is_bloch_wave",
    "C61_state_vector_index_raises",
    "C61_bloch_states_are_bloch_waves",
    "C61_bloch_states_exist",
    "C61_bloch_states_inner_products",
    "C61_unfurl_adds_bloch_states"
   ],
   "note": "negative flat indices raise because get_stacked_index uses np.unravel_index"
  },
  {
   "property": "C62",
   "status": "proved",
   "theorems": [
    "C62_wannier_states_are_translated",
    "C62_wannier_orthonormal",
    "C62_wannier_truncated_refuted"
   ],
   "note": "finding: the translation uses the number of basis states, so truncated bases give overlapping states"
  },
  {
   "property": "C63",
   "status": "proved",
   "theorems": [
    "C63_get_wavepacket",
    "C63_into_iter",
    "C63_iter_round_trip",
    "C63_iterator_drops_first",
    "C63_to_shape_keeps_fractions",
    "C63_fractions_identify_samples",
    "C63_to_shape_accepts",
    "C63_to_shape_raises",
    "C63_to_shape_label_refuted"
   ],
   "note": "slices of the list (get_wavepackets) not modelled; findings: a generator loses its first element, the resampled list is labelled with a position-type basis"
  },
  {
   "property": "C64",
   "status": "proved",
   "theorems": [
    "C64_full_hamiltonian_elements",
    "C64_full_hamiltonian_transposed_refuted",
    "C64_full_hamiltonian_order_refuted"
   ],
   "note": "finding: the matrix is the transpose of that of H and its rows are ordered (cell, band) while the states are ordered (band, cell)"
  },
  {
   "property": "C65",
   "status": "proved",
   "theorems": [
    "C65_derivative_of_potential",
    "C65_derivative_axis_out_of_range"
   ],
   "note": "Coquelicot derivative of real and imaginary part"
  },
  {
   "property": "C66",
   "status": "proved",
   "theorems": [
    "C66_simulation_solves_rate_equation",
    "C66_equilibrium"
   ],
   "note": "scipy.linalg.eig and solve are arguments constrained by their defining equations"
  },
  {
   "property": "C67",
   "status": "proved",
   "theorems": [
    "C67_collapse_rates",
    "C67_collapse_rates_refuted",
    "C67_simplified_collapse_rates"
   ],
   "note": "finding: squared and transposed rates; complex comparison modelled for real rates"
  },
  {
   "property": "C68",
   "status": "proved",
   "theorems": [
    "C68_scattering_average",
    "C68_scattering_bounds"
   ],
   "note": "the inverse of the supercell vectors is an argument"
  },
  {
   "property": "C69",
   "status": "proved",
   "theorems": [
    "C69_solves_the_oscillator",
    "C69_orthonormal",
    "C69_compiled_hermite_values",
    "C69_compiled_states_agree",
    "C69_compiled_states_normalised_refuted",
    "C69_compiled_hermite_values_refuted"
   ],
   "note": "Exact reals; scipy.special.eval_hermite is modelled by its recurrence. Machine integers wrap as in a release build. Findings: compiled factorial overflows at level 21 (norm 3.6), compiled coefficients overflow at degree 26."
  },
  {
   "property": "C70",
   "status": "proved",
   "theorems": [
    "C70_distance_is_projection",
    "C70_potential_minimum",
    "C70_potential_value",
    "C70_zero_at_origin_refuted",
    "C70_components_are_densities"
   ],
   "note": "Finding: calculate_x_distances adds the projected origin, so zero lies at minus the origin."
  },
  {
   "property": "C71",
   "status": "proved",
   "theorems": [
    "C71_coefficients_exist",
    "C71_oscillator_elements",
    "C71_explicit_elements",
    "C71_real_states",
    "C71_complex_states_refuted",
    "C71_hermitian"
   ],
   "note": "The whole claim is the characterisation with conjugated states. Finding: the second z state is conjugated instead of the first. Exact reals; debug asserts and index panics of the compiled code are modelled as None."
  },
  {
   "property": "C72",
   "status": "proved",
   "theorems": [
    "C72_elements",
    "C72_real_states",
    "C72_complex_states_refuted",
    "C72_hermitian",
    "C72_too_few_points",
    "C72_as_fundamental",
    "C72_as_fundamental_raises"
   ],
   "note": "numpy.linalg.eigh is an argument constrained by eigh_ok. Finding: the matrix is wrong for complex z states, e.g. eigenvectors with a phase or a Bloch fraction along z."
  },
  {
   "property": "C73",
   "status": "proved",
   "theorems": [
    "C73_plane_waves",
    "C73_bloch"
   ],
   "note": "Exact reals; uses the compiled oscillator states, which are correct up to level 20 (C69)."
  },
  {
   "property": "C74",
   "status": "proved",
   "theorems": [
    "C74_interpolation",
    "C74_passes_through",
    "C74_plane_waves",
    "C74_default_axes",
    "C74_default_order_refuted"
   ],
   "note": "Exact arithmetic; the FFT of numpy and scipy is modelled by its defining sum. Finding: without axes the sizes are assigned to the last axes in reverse, contrary to the docstring."
  },
  {
   "property": "C75",
   "status": "proved",
   "theorems": [
    "C75_interpolation",
    "C75_passes_through",
    "C75_even_axis",
    "C75_even_axis_refuted",
    "C75_one_axis",
    "C75_one_axis_passes_through",
    "C75_symmetric",
    "C75_half_spectrum_padding"
   ],
   "note": "The whole claim is the characterisation, including the even case. Finding (known to the test suite): an even axis that grows is not interpolated through its own values."
  },
  {
   "property": "C76",
   "status": "proved",
   "theorems": [
    "C76_diagonal_samples",
    "C76_full_samples",
    "C76_diagonal_covariance",
    "C76_full_covariance",
    "C76_any_eigenvalues",
    "C76_negative_eigenvalue_refuted",
    "C76_kernel_covariance",
    "C76_kernel_samples",
    "C76_components",
    "C76_mismatch_raises"
   ],
   "note": "The random numbers are arguments of the model; an expectation value is any linear functional on the functions that have one. Finding: negative eigenvalues enter with their modulus."
  },
  {
   "property": "C77",
   "status": "proved",
   "theorems": [
    "C77_isotropic_kernel",
    "C77_diagonal_kernel",
    "C77_distance_unique",
    "C77_distance_along_axis",
    "C77_rotated_refuted",
    "C77_unstacked_raises",
    "C77_one_point",
    "C77_axis_kernel_raises",
    "C77_gaussian_one_axis",
    "C77_gaussian_two_axes_refuted"
   ],
   "note": "Findings: lattices that are not aligned with the coordinates, axis kernels, and gaussian kernels with two axes."
  },
  {
   "property": "C78",
   "status": "proved",
   "theorems": [
    "C78_gaussian_parameters",
    "C78_lorentzian_parameters",
    "C78_gaussian_kernel",
    "C78_documented_minimum_refuted",
    "C78_lorentzian_kernel",
    "C78_isotropic_kernel"
   ],
   "note": "hbar and the Boltzmann constant are arguments. Findings: the documented smallest correlation; the lorentzian kernel has twice the friction."
  },
  {
   "property": "C79",
   "status": "proved",
   "theorems": [
    "C79_gaussian_operators",
    "C79_effective_operators",
    "C79_positive_refuted",
    "C79_negative_correlation"
   ],
   "note": "Finding: the noise is not positive on four points."
  },
  {
   "property": "C80",
   "status": "proved",
   "theorems": [
    "C80_kernel_conversion",
    "C80_converted_operators",
    "C80_any_operators",
    "C80_same_basis",
    "C80_intermediate_basis",
    "C80_round_trip",
    "C80_positive",
    "C80_diagonal_conversion",
    "C80_diagonal_as_full",
    "C80_diagonal_rectangular_raises",
    "C80_rectangular_refuted",
    "C80_isotropic_same_basis",
    "C80_isotropic_refuted"
   ],
   "note": "np.linalg.eigh enters as an assumption on what it returns. Findings: bases of different sizes, isotropic kernels."
  },
  {
   "property": "C81",
   "status": "proved",
   "theorems": [
    "C81_read_neighbours",
    "C81_written_overlaps",
    "C81_overlaps_of_a_sample_with_itself",
    "C81_opposite_neighbour",
    "C81_written_projections"
   ],
   "note": "The printing of floats and the win file are not modelled; files written are given by their content."
  },
  {
   "property": "C82",
   "status": "proved",
   "theorems": [
    "C82_read_operator",
    "C82_localized_states",
    "C82_individual_bands"
   ],
   "note": "Python's float on a token is a parameter."
  },
  {
   "property": "C83",
   "status": "proved",
   "theorems": [
    "C83_reversal",
    "C83_exchange",
    "C83_exchange_merges",
    "C83_representative_equivalent",
    "C83_representative_of_one_operation",
    "C83_representative_unique_refuted"
   ],
   "note": "Findings: exchange of axes of different lengths, representatives under several operations."
  },
  {
   "property": "C84",
   "status": "proved",
   "theorems": [
    "C84_wavepacket_overlap",
    "C84_wavepacket_overlap_sum",
    "C84_state_overlaps",
    "C84_unshifted_overlaps",
    "C84_shift_first_axis",
    "C84_shift_other_axis_refuted",
    "C84_wavepacket_list_overlap",
    "C84_conversion_keeps_overlaps",
    "C84_momentum_conversion_raises",
    "C84_single_overlap",
    "C84_cache_names_distinct",
    "C84_cache_names_given",
    "C84_position_conversion"
   ],
   "note": "Findings: shifts along other axes, conversion to momentum. The optional last conversion of calculate_wavepacket_list_overlap is not modelled."
  },
  {
   "property": "C85",
   "status": "proved",
   "theorems": [
    "C85_at_reciprocal_vectors",
    "C85_momentum_coefficient",
    "C85_at_zero",
    "C85_conjugate",
    "C85_bounded",
    "C85_fractions_equal_axes",
    "C85_fractions_unequal_refuted",
    "C85_flat_interpolator_raises",
    "C85_flat_interpolator",
    "C85_flat_largest_terms",
    "C85_flat_all_terms",
    "C85_angle_average",
    "C85_angle_average_constant",
    "C85_angle_average_biased"
   ],
   "note": "Findings: get_overlap_momentum_interpolator_flat always raises (C85_flat_interpolator_raises), fractions with unequal axes, bias of the angular average. A negative number of points is not modelled."
  },
  {
   "property": "C86",
   "status": "proved",
   "theorems": [
    "C86_get_state_vector",
    "C86_out_of_range_raises",
    "C86_stacked_index",
    "C86_dual_vectors",
    "C86_iteration",
    "C86_collect",
    "C86_round_trip",
    "C86_weighted",
    "C86_weighted_wrong_length_raises",
    "C86_weighted_converts",
    "C86_average",
    "C86_average_default",
    "C86_basis_states",
    "C86_along_axes",
    "C86_along_axes_any_order",
    "C86_along_axes_default",
    "C86_along_axes_order_refuted"
   ],
   "note": "Findings: axes out of order, the basis of the first collected state. Averages with weights and negative axes are not modelled."
  },
  {
   "property": "C87",
   "status": "proved",
   "theorems": [
    "C87_inner_products",
    "C87_inner_products_adjoint",
    "C87_gram_matrix_positive",
    "C87_entries_are_single_products",
    "C87_elementwise",
    "C87_elementwise_lengths",
    "C87_eigenvalue_products",
    "C87_eigenvalue_products_ignore_bases_refuted",
    "C87_normalization",
    "C87_inner_product_basis_independent"
   ],
   "note": "Findings: products with eigenvalues do not convert, elementwise products accept a list of one state."
  },
  {
   "property": "C88",
   "status": "proved",
   "theorems": [
    "C88_single_point",
    "C88_single_points",
    "C88_single_points_raise_refuted",
    "C88_single_points_orthonormal_refuted",
    "C88_free_states",
    "C88_free_states_raise",
    "C88_free_states_translated",
    "C88_free_states_most_localized",
    "C88_from_probability",
    "C88_from_probability_centre"
   ],
   "note": "Findings: the states at single points raise or contain zero states unless the number of bands is close to the square root of the number of basis states. For fractions off the grid only the occupations are proved: the phases use slot numbers, not signed frequencies."
  },
  {
   "property": "C89",
   "status": "proved",
   "theorems": [
    "C89_fermi_occupation",
    "C89_integrand",
    "C89_occupation_integral",
    "C89_occupation_increasing",
    "C89_potential",
    "C89_potential_integral",
    "C89_potential_algebra",
    "C89_rate",
    "C89_rate_nan"
   ],
   "note": "Numerical integration is taken to be exact. Findings: the factor in front has the cube of hbar where the documentation has hbar, and the momentum used is half of the change of wavevector."
  },
  {
   "property": "C90",
   "status": "proved",
   "theorems": [
    "C90_times",
    "C90_empty_raises",
    "C90_span",
    "C90_samples",
    "C90_fundamental_times",
    "C90_explicit_span",
    "C90_bloch_fractions"
   ],
   "note": "Findings: the fundamental times include the end of the span, so the times are not among them; the span of an explicit basis is its spacing."
  },
  {
   "property": "C91",
   "status": "proved",
   "theorems": [
    "C91_choice",
    "C91_zero_states_raise",
    "C91_normalised_refuted",
    "C91_phase_only",
    "C91_round",
    "C91_one_realization_raises",
    "C91_trajectories",
    "C91_succeeds"
   ],
   "note": "qutip.ssesolve, the eigensolver and the random choices are parameters. Findings: the chosen state is not normalised, only one realisation is used, at the times 0 and half a spacing, and the initial state is not stored."
  },
  {
   "property": "C92",
   "status": "proved",
   "theorems": [
    "C92_offset_products",
    "C92_offset_products_complex",
    "C92_documented_offsets_refuted",
    "C92_displacements",
    "C92_displacement_facts",
    "C92_isf",
    "C92_isf_facts",
    "C92_commented_isf_refuted",
    "C92_normalized_average_drift",
    "C92_normalized_average_drift_uniform",
    "C92_average_normalized_drift",
    "C92_average_normalized_drift_at_rest",
    "C92_average_normalized_drift_translation_refuted",
    "C92_times",
    "C92_raises"
   ],
   "note": "Real and complex arithmetic is exact. Findings: mean square instead of root mean square, the conjugate of the commented scattering function, a documented correlation with its arguments exchanged, and two drifts with a wrong sign or a wrong normalisation."
  },
  {
   "property": "C93",
   "status": "proved",
   "theorems": [
    "C93_periodic_position",
    "C93_periodic_direction",
    "C93_periodic_bound",
    "C93_periodic_move",
    "C93_average_position",
    "C93_average_position_moves",
    "C93_average_position_of_point",
    "C93_average_position_more_dimensions",
    "C93_restored_positions"
   ],
   "note": "Real and complex arithmetic is exact (np.angle is the exact angle). Finding: for more than one dimension the product of angles and lattice vector raises or mixes states with components."
  },
  {
   "property": "C94",
   "status": "proved",
   "theorems": [
    "C94_average_position",
    "C94_average_momentum",
    "C94_probabilities",
    "C94_momentum_boost",
    "C94_real_momentum",
    "C94_real_at_rest_refuted",
    "C94_operators_raise",
    "C94_spread",
    "C94_spread_zero",
    "C94_coherent_coordinates",
    "C94_coherent_coordinates_scaled"
   ],
   "note": "Real and complex arithmetic is exact; a vanishing state gives nan in the code and no result in the model. Findings: position and momentum operators raise in more than one dimension, the spread changes its argument, and real wavefunctions can have a mean momentum."
  },
  {
   "property": "C95",
   "status": "proved",
   "theorems": [
    "C95_projection_defined",
    "C95_projection_inner",
    "C95_projection_orientation",
    "C95_momentum_projection",
    "C95_coordinates",
    "C95_coordinates_truncated_refuted",
    "C95_max_idx"
   ],
   "note": "Real arithmetic is exact, so a vanishing vector is exactly zero (numpy divides by zero or by rounding errors). Finding: get_x_coordinates_in_axes reshapes to the shape of the basis, not of its points."
  },
  {
   "property": "C96",
   "status": "proved",
   "theorems": [
    "C96_path_length",
    "C96_path_straight",
    "C96_wrapped_length",
    "C96_wrapped_periodic",
    "C96_wrapped_shortest",
    "C96_coordinates_length",
    "C96_momentum_length",
    "C96_momentum_entries_refuted"
   ],
   "note": "Real arithmetic is exact. Finding: the norms of calculate_cumulative_k_distances_along_path run over the points instead of the components."
  },
  {
   "property": "C97",
   "status": "proved",
   "theorems": [
    "C97_twice_average",
    "C97_middle",
    "C97_matrix",
    "C97_documented_refuted"
   ],
   "note": "Angles are exact; np.isclose keeps its absolute tolerance of 1e-8, which bounds the number of points. Finding: the docstring's examples."
  },
  {
   "property": "C98",
   "status": "proved",
   "theorems": [
    "C98_into_is_superposition",
    "C98_from_is_projection",
    "C98_agrees_with_explicit_states",
    "C98_round_trip",
    "C98_all_bands_are_complete",
    "C98_into_raises_when_truncated",
    "C98_states_at_momentum"
   ],
   "note": "Modelled for a list basis that is already the fundamental transformed one (the constructor converts to it) and one vector at a time. Finding: __into_fundamental__ uses shape where __from_fundamental__ uses fundamental_shape, so it raises for truncated state bases."
  },
  {
   "property": "C99",
   "status": "proved",
   "theorems": [
    "C99_all_states_are_the_bloch_waves",
    "C99_all_eigenstates_raises",
    "C99_position_localisation_raises",
    "C99_energy_of_a_state",
    "C99_energy_of_a_bloch_wave",
    "C99_energy_bounds",
    "C99_average_eigenvalues",
    "C99_slice_keeps_eigenvalues",
    "C99_wavepacket_at_band"
   ],
   "note": "For list bases of the fundamental transformed form. Finding: get_all_eigenstates zips the flattened data with the eigenvalues and so raises unless the cell has a single point; localize_position_operator and its many-band forms start with it. What those functions would do next is left open in the model (any continuation)."
  },
  {
   "property": "C100",
   "status": "proved",
   "theorems": [
    "C100_tight_binding_state",
    "C100_whole_cell",
    "C100_each_point_once",
    "C100_norm",
    "C100_missing_points",
    "C100_whole_cell_for_every_sampling_refuted",
    "C100_three_axes_raise",
    "C100_states_of_the_bands"
   ],
   "note": "For list bases of the fundamental transformed form and state bases with as many states as points (wrap_index_around_origin uses the number of states as the period). Findings: points are lost when there are fewer samples than points along the first axis (C100_missing_points, ..._refuted), the state is not normalised, and three axes raise."
  },
  {
   "property": "C101",
   "status": "proved",
   "theorems": [
    "C101_bands",
    "C101_single_band",
    "C101_single_point",
    "C101_single_point_state",
    "C101_tight_binding",
    "C101_tight_binding_three_axes_raise",
    "C101_exponential_raises",
    "C101_gaussian_raises",
    "C101_gaussian",
    "C101_gaussian_centred_at_origin_refuted",
    "C101_gaussian_projection",
    "C101_evenly_spaced",
    "C101_evenly_spaced_orthonormal",
    "C101_evenly_spaced_repeated",
    "C101_evenly_spaced_raises"
   ],
   "note": "svd enters through its properties (a function with them is shown to exist). Single band functions for list bases of the fundamental transformed form; C101_bands for every list basis. Findings: the exponential states always raise (C101_exponential_raises), the gaussian state exists for two axes only and takes widths and periods from the pair (list, state) (C101_gaussian, ..._centred_at_origin_refuted)."
  },
  {
   "property": "C102",
   "status": "proved",
   "theorems": [
    "C102_two_points",
    "C102_two_points_few_states_refuted",
    "C102_two_points_raise",
    "C102_two_point_max",
    "C102_two_point_max_flat_refuted",
    "C102_max_point_raises"
   ],
   "note": "List bases of the fundamental transformed form. Findings: the single point variant always raises (C102_max_point_raises), the two point variant does not reshape flat data (C102_two_point_max_flat_refuted), points are wrapped by the number of states (C102_two_points_few_states_refuted)."
  },
  {
   "property": "C103",
   "status": "proved",
   "theorems": [
    "C103_position_form",
    "C103_momentum_form",
    "C103_dual_position_form",
    "C103_dual_momentum_form",
    "C103_interpolated",
    "C103_common_points",
    "C103_requested_shape_refuted",
    "C103_interpolation_raises",
    "C103_single_axis_raises"
   ],
   "note": "Findings: every named axis uses the second entry of the shape (C103_interpolated, C103_requested_shape_refuted), a single axis always raises (C103_single_axis_raises)."
  },
  {
   "property": "C104",
   "status": "proved",
   "theorems": [
    "C104_eigenstate_basis",
    "C104_eigenstate_basis_raises",
    "C104_projection",
    "C104_all_states_lossless",
    "C104_stacked_shape",
    "C104_inner_product_any_basis",
    "C104_apply_to_states",
    "C104_eigenvectors_rebuild",
    "C104_not_square_raises"
   ],
   "note": "scipy.linalg.eigh is assumed to return orthonormal eigenvectors and the chosen eigenvalues in ascending order (eigh_ok, inhabited: eigh_exists), np.linalg.eig eigenvectors of the operator at hand. Finding: the stacked class reports a shape that is not that of its states (C104_stacked_shape)."
  },
  {
   "property": "C105",
   "status": "proved",
   "theorems": [
    "C105_last_axis",
    "C105_other_axes",
    "C105_first_axis_refuted",
    "C105_uneven_values",
    "C105_uneven_kept",
    "C105_uneven_ends",
    "C105_uneven_spacing_refuted",
    "C105_stand_in",
    "C105_lowest_column"
   ],
   "note": "The spline of scipy is a parameter assumed to depend on the points only and to go through them (spline_ok, inhabited: point_spline); what np.empty holds is a parameter. Findings: along other axes than the last one uninitialised memory may be returned (C105_other_axes, C105_first_axis_refuted); the height of the interpolated potential is that of n - 1 spacings (C105_uneven_spacing_refuted)."
  },
  {
   "property": "C106",
   "status": "proved",
   "theorems": [
    "C106_probabilities_at_times",
    "C106_isf_at_times_raises",
    "C106_isf_in_the_basis_of_the_states",
    "C106_probability_of_a_density_matrix",
    "C106_equilibrium_isf_raises",
    "C106_jump_matrix_raises",
    "C106_rate_decomposition"
   ],
   "note": "Only the part of the two equilibrium averages before their first band is modelled, since it raises. Findings: calculate_isf_at_times, both equilibrium averages, get_jump_matrix_from_a_matrix and resample_tunnelling_a_matrix always raise; get_rate_decomposition returns eigenvectors as eigenvalues."
  },
  {
   "property": "C107",
   "status": "proved",
   "theorems": [
    "C107_double_exponential",
    "C107_fast_and_slow_refuted",
    "C107_extracted_rates",
    "C107_extraction_exists",
    "C107_four_variable_model",
    "C107_four_variable_contains_fey",
    "C107_fitted_parameters",
    "C107_starts",
    "C107_window_and_error_bars",
    "C107_no_worse_than_start"
   ],
   "note": "scipy's curve_fit is a parameter assumed to return parameters within the bounds that fit no worse than the start, and to raise for a start outside (curve_fit_ok, inhabited: exchanging_fit); fsolve is any function, its result being a root is a hypothesis of the extraction. The measure angle is not modelled. Findings: labels fast and slow are not determined (C107_fast_and_slow_refuted, C107_extraction_exists); error bars are ignored and the last time is never used (C107_window_and_error_bars)."
  },
  {
   "property": "C108",
   "status": "proved",
   "theorems": [
    "C108_banded_step",
    "C108_banded_raises",
    "C108_dense_times",
    "C108_qutip_rates_refuted",
    "C108_collapse_from_function"
   ],
   "note": "The solvers themselves (qutip, sse_solver_py) are outside of the package: the theorems are about the arguments handed over and the Euler step of the equation with these arguments (SpecSseSolve). That output i lies i * step * dt after the start is assumed (the source of sse_solver_py is not here). Findings: the dense solver's times are wrong for step > 1 (C108_dense_times), qutip's rates are wrong by 1 / hbar (C108_qutip_rates_refuted), defaults raise (C108_banded_raises), C108_collapse_from_function."
  },
  {
   "property": "C109",
   "status": "proved",
   "theorems": [
    "C109_wannier_basis",
    "C109_wannier_hamiltonian",
    "C109_full_hamiltonian",
    "C109_diagonal_round_trip",
    "C109_full_to_diagonal",
    "C109_diagonal_applied",
    "C109_tight_binding_operator"
   ],
   "note": "The order of the rows and the exchange of left and right of the full Hamiltonian are the findings of C64. scipy.linalg.svd is a function meeting svd_ok."
  },
  {
   "property": "C110",
   "status": "proved",
   "theorems": [
    "C110_axis_forms",
    "C110_forms_of_axes",
    "C110_fundamental_forms",
    "C110_fundamental_forms_raise",
    "C110_waves",
    "C110_from_shape",
    "C110_from_shape_default",
    "C110_from_parent",
    "C110_momentum_from_resolution",
    "C110_with_shape_raises",
    "C110_single_points"
   ],
   "note": "Findings: basis_as_n_point_basis and its callers always raise NameError (C110_with_shape_raises, C110_single_points); a basis from a parent at another resolution is no target for conversions (C110_from_parent). np.linalg.inv enters as an inverse of the lattice."
  },
  {
   "property": "C111",
   "status": "proved",
   "theorems": [
    "C111_points_keep_total",
    "C111_forms",
    "C111_waves_total",
    "C111_total_and_sign_refuted",
    "C111_list_rows",
    "C111_list_exists",
    "C111_along_one_axis",
    "C111_along_raises",
    "C111_along_default_raises"
   ],
   "note": "Findings: probabilities in bases other than points are converted as amplitudes, so totals and signs change (C111_total_and_sign_refuted); get_probability_along_axis only works for lists along one axis (C111_along_one_axis, C111_along_raises, C111_along_default_raises)."
  },
  {
   "property": "C112",
   "status": "proved",
   "theorems": [
    "C112_entries",
    "C112_raises",
    "C112_picked_states_kept",
    "C112_eigenpairs_refuted",
    "C112_wavepacket_position",
    "C112_potential_position",
    "C112_sample_frequencies",
    "C112_bloch_states",
    "C112_offsets"
   ],
   "note": "Findings: eigenvalues of a collection converted to another sample basis are no eigenvalues (C112_eigenpairs_refuted); too few offsets silently give fewer axes (C112_offsets). np.linalg.inv enters as an inverse of the lattice."
  },
  {
   "property": "C113",
   "status": "proved",
   "theorems": [
    "C113_wave_vectors",
    "C113_bloch_waves",
    "C113_grid",
    "C113_truncated_grid_refuted",
    "C113_cell_raises",
    "C113_flat_cell",
    "C113_files",
    "C113_operator",
    "C113_localized",
    "C113_other_number_of_projections",
    "C113_symmetry_raises",
    "C113_individual_bands"
   ],
   "note": "Wannier90 itself enters as two functions from the files written to the texts it leaves, assumed to list neighbours of the samples and one num_wann x num_wann matrix per sample. The text of numbers in the files is not modelled. Findings: truncated sample bases (C113_truncated_grid_refuted), vectors with one component (C113_flat_cell), a number of projections other than the number of bands (C113_other_number_of_projections)."
  },
  {
   "property": "C114",
   "status": "proved",
   "theorems": [
    "C114_corrected_operators",
    "C114_transitions",
    "C114_detailed_balance",
    "C114_missing_transition_refuted",
    "C114_effective_transitions"
   ],
   "note": "Eigenstates are vectors with H u = E u, not required to be normalised. Finding: the correction is of first order in 1/(kT), so detailed balance holds to third order only and fails outright at an energy difference of 4kT (C114_missing_transition_refuted)."
  },
  {
   "property": "C115",
   "status": "proved",
   "theorems": [
    "C115_locations",
    "C115_square_cell",
    "C115_placed_states",
    "C115_misplaced_refuted",
    "C115_single_axis_raises"
   ],
   "note": "Finding: locations are in grid points, the simulation and the documentation take them as fractions of the cell (C115_misplaced_refuted)."
  },
  {
   "property": "C116",
   "status": "proved",
   "theorems": [
    "C116_symmetric_sites_111",
    "C116_bridge_111",
    "C116_rounded_111",
    "C116_symmetric_sites_100",
    "C116_bridge_100"
   ],
   "note": "Finding: with a number of points that is no multiple of three the HCP and top sites are rounded and not symmetric (C116_rounded_111)."
  },
  {
   "property": "C117",
   "status": "proved",
   "theorems": [
    "C117_line_in_position",
    "C117_line_in_momentum",
    "C117_line_of_indices",
    "C117_mesh_in_position",
    "C117_mesh_in_momentum",
    "C117_default_in_position",
    "C117_default_in_momentum",
    "C117_default_line_in_momentum_refuted",
    "C117_phase_at_end_refuted",
    "C117_single_point_raises",
    "C117_wrong_index_raises"
   ],
   "note": "Findings: the default index of plot_data_1d_k is taken from unconverted data (C117_default_line_in_momentum_refuted); the phase is not continuous at the repeated point (C117_phase_at_end_refuted); an axis of one point raises."
  },
  {
   "property": "C118",
   "status": "proved",
   "theorems": [
    "C118_mass_of_band",
    "C118_single_sample_raises",
    "C118_free_bands",
    "C118_free_particle",
    "C118_hopping_chain",
    "C118_negative_axis",
    "C118_localized_one_band",
    "C118_localized_two_bands_refuted"
   ],
   "note": "Findings: an axis counted from the end uses the mean energy (C118_negative_axis); the masses from the Wannier Hamiltonian carry a further factor, the root of the number of samples (C118_localized_one_band), and with several bands read elements between bands (C118_localized_two_bands_refuted). The Wannier states built on the way, whose values are not used, are left out."
  },
  {
   "property": "C119",
   "status": "proved",
   "theorems": [
    "C119_against_time",
    "C119_against_index",
    "C119_all_against_time",
    "C119_against_frequency",
    "C119_against_frequency_exact",
    "C119_frequency_phase_refuted",
    "C119_frequency_raises",
    "C119_split_against_time",
    "C119_split_against_frequency",
    "C119_average",
    "C119_average_imaginary_refuted"
   ],
   "note": "Findings: for a time basis with a step and an offset the phases of the spectrum are off (C119_frequency_phase_refuted); the line of averages of imaginary parts is zero (C119_average_imaginary_refuted). Phases are unwrapped over all lists as one, so an average of phases depends on the order of the lists. Scales, labels and colours are not modelled."
  },
  {
   "property": "C120",
   "status": "proved",
   "theorems": [
    "C120_thermal_occupations",
    "C120_thermal_raises",
    "C120_thermal_shift",
    "C120_thermal_again",
    "C120_caller_unchanged_refuted",
    "C120_eigenvalues_sorted",
    "C120_state_occupations",
    "C120_average_occupations",
    "C120_nothing_drawn",
    "C120_thermal_bands",
    "C120_lower_bands_fuller",
    "C120_bands_shift",
    "C120_total_occupation",
    "C120_total_raises",
    "C120_probability_per_band",
    "C120_probability_per_site"
   ],
   "note": "Finding: plot_eigenstate_occupations changes the eigenvalues of its argument in place (C120_caller_unchanged_refuted). Eigenvalues are real; the diagonalisation is given as eigenvalues and a unitary matrix; states and Hamiltonian have the same basis. Labels and titles are not modelled."
  },
  {
   "property": "C121",
   "status": "proved",
   "theorems": [
    "C121_elements",
    "C121_own_basis",
    "C121_downward_axis_refuted",
    "C121_harmonic",
    "C121_hermitian",
    "C121_symmetric_transform",
    "C121_resolution"
   ],
   "note": "Finding: for an axis along -z the oscillator subtracted is centred elsewhere than the oscillator states (C121_downward_axis_refuted). The diagonal energies and the slow version need the oscillator basis, whose construction raises; only the elements the compiled function returns are stated. At most 21 oscillator states, beyond which the factorial of the compiled code overflows."
  },
  {
   "property": "C122",
   "status": "proved",
   "theorems": [
    "C122_truncation_bounds_error",
    "C122_truncation_full",
    "C122_eigenvalues",
    "C122_eigenvalues_kept_refuted",
    "C122_sample",
    "C122_sample_truncated",
    "C122_sample_truncation_refuted",
    "C122_percentage_error",
    "C122_mesh"
   ],
   "note": "Findings: a truncated sample is drawn with the wrong operators (C122_sample_truncation_refuted); a truncation of the eigenvalue plot leaves out the smallest t+1 and keeps none when it is the number of eigenvalues (C122_eigenvalues_kept_refuted). Labels, scales and figures are not modelled; entries divided by zero are None."
  },
  {
   "property": "C123",
   "status": "proved",
   "theorems": [
    "C123_potential_along_path",
    "C123_state_along_path",
    "C123_minimum_path",
    "C123_minimum_along_path",
    "C123_minimum_in_momentum_refuted"
   ],
   "note": "Finding: get_minimum_path looks for the minimum of the data in the potential's own basis, but the value is drawn in position (C123_minimum_in_momentum_refuted). Potentials along a single axis, whose paths have no rows, are left out of get_minimum_path."
  },
  {
   "property": "C124",
   "status": "proved",
   "theorems": [
    "C124_points",
    "C124_frame_unique",
    "C124_points_raise",
    "C124_momenta",
    "C124_position_plane",
    "C124_bragg_points",
    "C124_zone_points",
    "C124_first_zone_refuted",
    "C124_momentum_plane",
    "C124_momentum_plane_refuted",
    "C124_position_at_index",
    "C124_position_at_flat_index",
    "C124_position_at_index_refuted"
   ],
   "note": "Findings: planes of momenta use the index along the wrong axis (C124_momentum_plane_refuted), a grid index is drawn as if it were a position (C124_position_at_index_refuted), and the points of the zone need not lie in the first one (C124_first_zone_refuted). Negative axes and indices and slices as indices are left out."
  },
  {
   "property": "C125",
   "status": "proved",
   "theorems": [
    "C125_momentum_lines",
    "C125_position_lines",
    "C125_mesh",
    "C125_samples",
    "C125_default_plane_refuted",
    "C125_uneven_lines",
    "C125_components",
    "C125_free_integral",
    "C125_free_particle",
    "C125_raise"
   ],
   "note": "Finding: the default index of the sample frequencies is empty whatever the number of axes, so all samples are drawn (C125_default_plane_refuted). Samples are in a basis with as many states as points; negative bands and indices are left out."
  },
  {
   "property": "C126",
   "status": "proved",
   "theorems": [
    "C126_round_trip",
    "C126_order",
    "C126_ticks",
    "C126_ticks_in_view",
    "C126_ticks_outside_refuted",
    "C126_ticks_symmetric"
   ],
   "note": "Finding: ticks of views that reach below zero (C126_ticks_outside_refuted, C126_ticks_symmetric)."
  },
  {
   "property": "C127",
   "status": "proved",
   "theorems": [
    "C127_shape_unique",
    "C127_grid",
    "C127_grid_refused",
    "C127_uneven",
    "C127_uneven_refused",
    "C127_heights_refuted"
   ],
   "note": "Finding: heights are not compared with the points (C127_heights_refuted). Values other than numbers and lists, and missing keys, are left out."
  },
  {
   "property": "C128",
   "status": "proved",
   "theorems": [
    "C128_along",
    "C128_new_axis"
   ],
   "note": "numpy's reading of an index is part of the model."
  },
  {
   "property": "C129",
   "status": "proved",
   "theorems": [
    "C129_elements_between_bloch_states",
    "C129_eigenstates_of_the_supercell",
    "C129_odd_numbers_of_points",
    "C129_truncated_plane_waves",
    "C129_generated_wavepackets",
    "C129_bloch_hamiltonian_of_all_bands",
    "C129_even_points_refuted"
   ],
   "note": "The statement is the full characterisation: with a component at the edge frequency of an even axis the energy differs (C129_even_points_refuted). Uses eigh_ok for numpy.linalg.eigh / scipy.linalg.eigh."
  },
  {
   "property": "C130",
   "status": "proved",
   "theorems": [
    "C130_wannier_hamiltonian_of_the_supercell",
    "C130_same_eigenvalues",
    "C130_tight_binding_states"
   ],
   "note": "For an odd number of points along every axis (see C129 for even numbers); in the statement the two sides of the element are exchanged as the code does (C64). Uses eigh_ok and svd_ok for the numerical routines."
  },
  {
   "property": "C131",
   "status": "proved",
   "theorems": [
    "C131_components_along_eigenvectors",
    "C131_evolution_through_bloch_states"
   ],
   "note": "For an odd number of points along every axis (see C129 for even numbers). Uses eigh_ok for the two diagonalisations."
  },
  {
   "property": "C132",
   "status": "proved",
   "theorems": [
    "C132_rate_of_change",
    "C132_commuting_operators",
    "C132_energy",
    "C132_occupations"
   ],
   "note": "Uses eigh_ok for the diagonalisation. The derivative is that of the real and imaginary parts, with Coquelicot."
  },
  {
   "property": "C133",
   "status": "proved",
   "theorems": [
    "C133_fewer_states",
    "C133_nested_bases",
    "C133_hamiltonian",
    "C133_within_complete",
    "C133_within_explicit",
    "C133_within_truncated"
   ],
   "note": "Uses eigh_ok for the eigensolver (such a function exists, Spectral3.eigh_exists)."
  },
  {
   "property": "C134",
   "status": "proved",
   "theorems": [
    "C134_order",
    "C134_stability"
   ],
   "note": "Uses eigh_ok for the eigensolver, as C133."
  },
  {
   "property": "C135",
   "status": "proved",
   "theorems": [
    "C135_opposite_fractions",
    "C135_even_refuted"
   ],
   "note": "Equality for odd numbers of plane waves; C135_even_refuted shows that it fails for even ones. Uses eigh_ok for the eigensolver, as C133."
  },
  {
   "property": "C136",
   "status": "proved",
   "theorems": [
    "C136_moved_potential"
   ],
   "note": "Uses eigh_ok for the eigensolver, as C133."
  },
  {
   "property": "C137",
   "status": "proved",
   "theorems": [
    "C137_sum",
    "C137_shifted",
    "C137_normalized",
    "C137_scaled"
   ],
   "note": "Uses eigh_ok for the eigensolver, as C133."
  },
  {
   "property": "C138",
   "status": "proved",
   "theorems": [
    "C138_operator_list",
    "C138_list_operator",
    "C138_operator_diagonal_list",
    "C138_diagonal_list_operator",
    "C138_sum_of_lists",
    "C138_difference_of_lists"
   ],
   "note": "Sums and differences for data stored flat, the shape the library produces."
  },
  {
   "property": "C139",
   "status": "proved",
   "theorems": [
    "C139_elements",
    "C139_energies",
    "C139_evolution"
   ],
   "note": "Energies as spectra of the returned operators; the eigensolver returns them (C104). Evolution for real potentials."
  },
  {
   "property": "C140",
   "status": "proved",
   "theorems": [
    "C140_free_particle",
    "C140_between_levels"
   ],
   "note": "Constant on the points of the grid; the two numerical assertions of the solver are not modelled (C39)."
  },
  {
   "property": "C141",
   "status": "proved",
   "theorems": [
    "C141_bound",
    "C141_continuous"
   ],
   "note": "Bound by kinetic energies, and a local Lipschitz bound."
  },
  {
   "property": "C142",
   "status": "proved",
   "theorems": [
    "C142_expectation_values",
    "C142_concave"
   ],
   "note": "The state is given in the basis of the operator."
  },
  {
   "property": "C143",
   "status": "proved",
   "theorems": [
    "C143_reversed_time",
    "C143_moved_state",
    "C143_even_refuted"
   ],
   "note": "Amplitudes are compared on the points of the grid. C143_even_refuted is the counterexample for two plane waves."
  },
  {
   "property": "C144",
   "status": "proved",
   "theorems": [
    "C144_scaled_and_shifted",
    "C144_overlaps"
   ],
   "note": "The basis has at least one state."
  }
 ]
}
{"id": "C01", "title": "Padding or truncating Fourier points keeps every frequency in its own slot", "statement": "pad_ft_points(ft_points, s, axes) returns an array of shape s along axes in which the slot of signed frequency f (per axis) holds exactly the input amplitude of frequency f whenever f is representable in both the old and the new length, and zero otherwise. No amplitude is lost, duplicated or moved to another frequency, and the function never raises for positive lengths.", "quantifier": "every number of padded axes, every old and new length >= 1 per axis (odd or even, larger or smaller), every array contents", "why_tests_cant": "tests sample a handful of lengths; the slice boundaries depend on parity and on old<new / old>new in each axis", "anchors": ["surface_potential_analysis/util/interpolation.py:pad_ft_points"]}
{"id": "C02", "title": "Padding Fourier points then truncating back is the identity", "statement": "pad_ft_points(pad_ft_points(v, s), n) equals v for s >= n, and truncating to s <= n then padding back to n zeroes exactly the frequencies not representable in length s and leaves all others untouched (so it is idempotent).", "quantifier": "every length n, every target s, every vector", "why_tests_cant": "requires every parity combination and every vector", "anchors": ["surface_potential_analysis/util/interpolation.py:pad_ft_points", "surface_potential_analysis/basis/basis.py:TruncatedBasis", "surface_potential_analysis/basis/basis.py:TransformedBasis"]}
{"id": "C03", "title": "nk_points list each signed residue once, in FFT order", "statement": "BasisUtil(basis).nk_points has length n; entry i is congruent to i modulo n and lies in [-floor(n/2), floor((n-1)/2)]; therefore no frequency is repeated or missed.", "quantifier": "every basis size n >= 1", "why_tests_cant": "the formula ifftshift(arange((-n+1)//2, (n+1)//2)) changes with the parity of n", "anchors": ["surface_potential_analysis/basis/util.py:BasisUtil.nk_points", "surface_potential_analysis/basis/util.py:BasisUtil.fundamental_nk_points"]}
{"id": "C04", "title": "Flat and stacked indices are mutually inverse", "statement": "get_flat_index(get_stacked_index(i)) == i for all flat indices in range, get_stacked_index(get_flat_index(idx)) == idx for all in-range stacked indices, get_flat_index(mode='wrap') depends only on the index modulo the shape, and the stacked nx/nk point tables agree with get_stacked_index entry by entry.", "quantifier": "every shape (any number of axes, any positive lengths) and every index", "why_tests_cant": "all shapes and all indices; tests use one or two small shapes", "anchors": ["surface_potential_analysis/basis/util.py:BasisUtil.get_flat_index", "surface_potential_analysis/basis/util.py:BasisUtil.get_stacked_index", "surface_potential_analysis/basis/util.py:BasisUtil.stacked_nx_points", "surface_potential_analysis/basis/util.py:BasisUtil.stacked_nk_points"]}
{"id": "C05", "title": "wrap_index_around_origin returns the nearest periodic image", "statement": "Along each wrapped axis of length L the result is congruent to the input modulo L and lies in [o - floor(L/2), o - floor(L/2) + L) for origin o, hence is the unique such index, wrapping twice changes nothing, shifting the input by a multiple of L changes nothing, and axes not listed are untouched.", "quantifier": "every shape, every index (any integers), every origin, every selection of axes", "why_tests_cant": "unbounded integers, parity of L", "anchors": ["surface_potential_analysis/stacked_basis/util.py:_wrap_index", "surface_potential_analysis/stacked_basis/util.py:wrap_index_around_origin"]}
{"id": "C06", "title": "wrap_x_point_around_origin translates by whole lattice vectors", "statement": "The returned point differs from the input by an integer combination of the basis' lattice vectors and its displacement from the origin has lattice coordinates in [-1/2, 1/2) along every axis; it is the only lattice image with that property.", "quantifier": "every number of dimensions, every lattice (any invertible delta_x), every real point and origin", "why_tests_cant": "real-valued inputs and arbitrary lattices", "anchors": ["surface_potential_analysis/stacked_basis/util.py:_wrap_distance", "surface_potential_analysis/stacked_basis/util.py:wrap_x_point_around_origin"]}
{"id": "C07", "title": "get_data_in_axes returns the requested axes in the requested order", "statement": "get_data_in_axes(data, axes, idx)[i_0,...,i_k] equals data at the position whose coordinate on axes[j] is i_j and whose coordinates on the remaining axes (ascending) are given by idx; the axes may be listed in any order.", "quantifier": "every number of dimensions, every duplicate-free list of axes in any order, every fixed index of the other axes", "why_tests_cant": "all permutations of all subsets of axes", "anchors": ["surface_potential_analysis/util/util.py:get_data_in_axes", "surface_potential_analysis/util/util.py:slice_ignoring_axes", "surface_potential_analysis/util/util.py:get_position_in_sorted"]}
{"id": "C08", "title": "Evenly spaced sampling places sample k at k*step+offset", "statement": "Padding an evenly spaced vector puts sample k at fundamental position (k*step+offset) mod (n*step) and zeros elsewhere, for positive, zero, negative or large offsets; truncating reads those positions back, so truncate(pad(v)) = v, and pad(truncate(w)) keeps exactly the sampled positions of w.", "quantifier": "every n >= 1, step >= 1, every integer offset, every vector", "why_tests_cant": "floor division and roll with negative or large offsets", "anchors": ["surface_potential_analysis/basis/evenly_spaced_basis.py:_pad_sample_axis", "surface_potential_analysis/basis/evenly_spaced_basis.py:_truncate_sample_axis"]}
{"id": "C09", "title": "convert_vector computes the projection onto the target basis states", "statement": "convert_vector(v, a, b) has components sum_k <b_j|a_k> v_k, where a_k and b_j are the basis states drawn as functions on the fundamental grid (delta functions, plane waves with signed frequencies, sampled points, explicit vectors, and products of these for stacked bases). The result does not depend on which of the internal routes (position or momentum) the code takes. Explicit vectors of the source basis need only be orthonormal when a basis object is converted to itself; a non-orthonormal explicit basis converted to itself and to an equal copy gives different results.", "quantifier": "every pair of bases with the same fundamental size built from the library's basis classes (arbitrarily nested stacked and explicit bases), every vector", "why_tests_cant": "exponentially many class combinations and all vectors", "anchors": ["surface_potential_analysis/basis/basis_like.py:convert_vector", "surface_potential_analysis/basis/basis_like.py:BasisLike.__convert_vector_into__", "surface_potential_analysis/basis/basis.py", "surface_potential_analysis/basis/evenly_spaced_basis.py", "surface_potential_analysis/basis/explicit_basis.py", "surface_potential_analysis/basis/stacked_basis.py:TupleBasis"]}
{"id": "C10", "title": "Round trips through a finer basis are exact", "statement": "convert_vector(convert_vector(v, a, b), b, a) == v whenever b is a complete basis (fundamental, fundamental-transformed, or a stack of those) and a is built from orthonormal basis classes.", "quantifier": "every such pair of bases, every vector", "why_tests_cant": "all sizes, all vectors", "anchors": ["surface_potential_analysis/basis/basis_like.py:convert_vector", "surface_potential_analysis/state_vector/conversion.py"]}
{"id": "C11", "title": "Conversion to a complete basis preserves inner products and norms", "statement": "For state vectors u, v in a (orthonormal) basis a and a complete basis b, the inner product of the converted vectors equals the inner product of the originals; total probability is therefore unchanged.", "quantifier": "every orthonormal basis a, complete basis b, all vectors", "why_tests_cant": "all sizes, all vectors", "anchors": ["surface_potential_analysis/basis/basis_like.py:convert_vector", "surface_potential_analysis/state_vector/state_vector.py:calculate_inner_product", "surface_potential_analysis/state_vector/conversion.py:convert_state_vector_to_basis"]}
{"id": "C12", "title": "Converting through an intermediate complete basis changes nothing", "statement": "convert(b, c) after convert(a, b) equals convert(a, c) for every complete basis b; convert_vector is linear.", "quantifier": "all triples of bases with b complete, all vectors and scalars", "why_tests_cant": "all triples, all vectors", "anchors": ["surface_potential_analysis/basis/basis_like.py:convert_vector"]}
{"id": "C13", "title": "Stacked conversion acts axis by axis", "statement": "For stacked bases convert_vector of a product vector is the product of the per-axis conversions, the reshapes keep row-major order, and the conversion raises exactly when the number of axes or the fundamental sizes disagree.", "quantifier": "every list of component bases, every vector", "why_tests_cant": "any number of axes, all shapes", "anchors": ["surface_potential_analysis/basis/stacked_basis.py:_convert_tuple_basis_vector", "surface_potential_analysis/basis/stacked_basis.py:TupleBasis"]}
{"id": "C14", "title": "convert_matrix is a similarity transform", "statement": "Converting operators to a complete basis sends products to products, adjoints to adjoints, and leaves traces and matrix elements <u|A|v> unchanged.", "quantifier": "every orthonormal source basis, complete target basis, all operators and vectors", "why_tests_cant": "all sizes, all matrices", "anchors": ["surface_potential_analysis/basis/basis_like.py:convert_matrix", "surface_potential_analysis/basis/basis_like.py:convert_dual_vector", "surface_potential_analysis/operator/conversion.py:convert_operator_to_basis"]}
{"id": "C15", "title": "An orthonormal explicit basis round-trips; otherwise conversion is the projection", "statement": "For an explicit basis with orthonormal vectors, from_fundamental(into_fundamental(v)) == v and into_fundamental(from_fundamental(w)) is the orthogonal projection of w on the span of the vectors (idempotent, self-adjoint, never increases the norm).", "quantifier": "every set of orthonormal vectors in every underlying basis", "why_tests_cant": "all vector sets", "anchors": ["surface_potential_analysis/basis/explicit_basis.py:ExplicitBasis"]}
{"id": "C16", "title": "Diagonal and full operator lists convert losslessly", "statement": "operator_list_as_diagonal(diagonal_operator_list_as_full(L)) == L; the full list has L's entries on the diagonal of each operator and zero elsewhere; select_operator/into_iter/from_iter return operators in order; from_iter raises exactly for no operators and for operators stored with different shapes. select_diagonal_operator returns the diagonal of the operator asked for in its bases, and raises for an index out of range; as_diagonal_operator and as_operator keep the bases.", "quantifier": "every number of operators, every size, all data", "why_tests_cant": "all sizes", "anchors": ["surface_potential_analysis/operator/operator_list.py", "surface_potential_analysis/operator/operator.py:as_operator", "surface_potential_analysis/operator/operator.py:as_diagonal_operator"]}
{"id": "C17", "title": "Commutators obey their algebra", "statement": "get_commutator is bilinear, antisymmetric and satisfies Jacobi; for Hermitian A, B the commutator is anti-Hermitian and the anticommutator Hermitian; the list versions and the diagonal list versions return, operator by operator, the same as the single version.", "quantifier": "all sizes, all operators, all list lengths", "why_tests_cant": "identities over all matrices", "anchors": ["surface_potential_analysis/operator/operations.py:get_commutator", "surface_potential_analysis/operator/operations.py:get_anti_commutator", "surface_potential_analysis/operator/operations.py:get_commutator_operator_list", "surface_potential_analysis/operator/operations.py:get_commutator_diagonal_operator_list"]}
{"id": "C18", "title": "operator_from_eigenstates rebuilds the operator", "statement": "If the eigenstate list is a complete set of eigenvectors of A with its eigenvalues then operator_from_eigenstates returns A; for an orthonormal set calculate_expectation of the result in state k is eigenvalue k.", "quantifier": "every size, every diagonalisable operator", "why_tests_cant": "all matrices", "anchors": ["surface_potential_analysis/state_vector/eigenstate_calculation.py:operator_from_eigenstates", "surface_potential_analysis/state_vector/eigenstate_calculation.py:calculate_expectation"]}
{"id": "C19", "title": "Periodic displacement matrices give minimum images", "statement": "get_displacements_matrix_nx(basis)[i,j] is congruent to i-j modulo n and lies in [-floor(n/2), ceil(n/2)); the stacked version does so per axis; its absolute value is symmetric in i and j.", "quantifier": "every size and shape, every pair of points", "why_tests_cant": "all sizes, parity", "anchors": ["surface_potential_analysis/operator/build.py:get_displacements_matrix_nx", "surface_potential_analysis/operator/build.py:get_displacements_matrix_nx_stacked"]}
{"id": "C20", "title": "_wrap_displacements keeps the image nearest to zero", "statement": "get_displacements_x and the stacked displacement functions return values in [-max, max) that differ from the true displacement by a multiple of the repeat length 2*max.", "quantifier": "every real displacement, every positive repeat length", "why_tests_cant": "real-valued inputs", "anchors": ["surface_potential_analysis/operator/build.py:_wrap_displacements", "surface_potential_analysis/operator/build.py:get_displacements_x"]}
{"id": "C21", "title": "Diagonal and full noise kernels convert losslessly", "statement": "as_diagonal_kernel_from_full(as_full_kernel_from_diagonal(K)) == K, and the full kernel is K[i,j] at [i,i,j,j] and zero elsewhere.", "quantifier": "every size, all data", "why_tests_cant": "all sizes; a misplaced reshape/swapaxes passes on symmetric samples", "anchors": ["surface_potential_analysis/kernel/kernel.py:as_full_kernel_from_diagonal", "surface_potential_analysis/kernel/kernel.py:as_diagonal_kernel_from_full"]}
{"id": "C22", "title": "Isotropic and diagonal kernels convert consistently", "statement": "as_diagonal_kernel_from_isotropic_stacked(k)[i,j] is k at the per-axis periodic displacement i-j, and as_isotropic_kernel_from_diagonal_stacked inverts it. The one-dimensional as_isotropic_kernel_from_diagonal instead returns the reversed kernel k(-x): the round trip is exact if and only if k is even, and its built-in check accepts exactly those kernels. get_isotropic_kernel_from_operators reads the kernel off the diagonal elements of the operators alone, sum_a lambda_a conj(L_a[0,0]) L_a[j,j], and its check looks at no others: elements off the diagonal are dropped. The isotropic kernel of diagonal operators on a stacked basis is the first column of their kernel, and with the check is returned only if the kernel depends on the displacement alone.", "quantifier": "every shape, every kernel", "why_tests_cant": "tests use even (Gaussian-like) kernels for which the reversal is invisible", "anchors": ["surface_potential_analysis/kernel/kernel.py:as_diagonal_kernel_from_isotropic", "surface_potential_analysis/kernel/kernel.py:as_isotropic_kernel_from_diagonal", "surface_potential_analysis/kernel/kernel.py:as_diagonal_kernel_from_isotropic_stacked", "surface_potential_analysis/kernel/kernel.py:as_isotropic_kernel_from_diagonal_stacked", "surface_potential_analysis/kernel/kernel.py:get_isotropic_kernel_from_operators", "surface_potential_analysis/kernel/kernel.py: get_isotropic_kernel_from_diagonal_operators_stacked"]}
{"id": "C23", "title": "Noise operators from eigenvectors rebuild the kernel", "statement": "For bases of equal size and every eigendecomposition of the kernel matrix, get_full_kernel_from_operators(get_periodic_noise_operators_eigenvalue(K)) == K, and likewise for diagonal kernels. For bases of different size the kernel is not rebuilt.", "quantifier": "every size, every kernel whose matrix is V diag(lambda) V^dagger", "why_tests_cant": "all kernels", "anchors": ["surface_potential_analysis/kernel/solve/_eigenvalue.py", "surface_potential_analysis/kernel/kernel.py:get_full_kernel_from_operators", "surface_potential_analysis/kernel/kernel.py:get_diagonal_kernel_from_diagonal_operators"]}
{"id": "C24", "title": "FFT noise operators rebuild the isotropic kernel", "statement": "get_diagonal_kernel_from_diagonal_operators(get_periodic_noise_operators_isotropic_fft(k)) == as_diagonal_kernel_from_isotropic(k) for every isotropic kernel (even or not), and for the stacked version with any number of axes.", "quantifier": "every size and every kernel", "why_tests_cant": "tests fix one size and one Gaussian kernel", "anchors": ["surface_potential_analysis/kernel/solve/_fft.py:get_periodic_noise_operators_isotropic_fft", "surface_potential_analysis/kernel/solve/_fft.py:get_periodic_noise_operators_isotropic_stacked_fft"]}
{"id": "C25", "title": "Cosine/sine noise operators give the cosine series of the coefficients", "statement": "The diagonal kernel of the real isotropic operators with coefficients c_0..c_{n-1} is sum_m c_m cos(2 pi m (x_i - x_j)/F): it depends only on the periodic displacement and is even. get_periodic_noise_operators_real_isotropic_fft accepts real even kernels but returns fewer operators than eigenvalues, so that its kernel cannot be rebuilt for four points or more.", "quantifier": "every N, every number of terms, every coefficient list", "why_tests_cant": "all sizes", "anchors": ["surface_potential_analysis/kernel/solve/_fft.py:get_periodic_operators_for_real_isotropic_noise", "surface_potential_analysis/kernel/solve/_taylor.py"]}
{"id": "C26", "title": "Axis kernels multiply to the isotropic kernel", "statement": "as_isotropic_kernel_from_axis gives k(x_0,..,x_d) = prod_a k_a(x_a); for kernels with nonzero value at zero displacement, as_axis_kernel_from_isotropic followed by as_isotropic_kernel_from_axis is the identity exactly on product kernels.", "quantifier": "every number of axes and sizes", "why_tests_cant": "all shapes, all kernels", "anchors": ["surface_potential_analysis/kernel/kernel.py:as_isotropic_kernel_from_axis", "surface_potential_analysis/kernel/kernel.py:as_axis_kernel_from_isotropic"]}
{"id": "C27", "title": "Truncating noise operators keeps the strongest", "statement": "truncate_diagonal_noise_operator_list returns the selected operators in order of decreasing |eigenvalue|, each operator still paired with its own eigenvalue, so that range(c) keeps the c strongest. truncate_noise_operator_list orders by the signed eigenvalue and can drop the strongest operator.", "quantifier": "every list of operators and eigenvalues, every selection", "why_tests_cant": "orderings and ties", "anchors": ["surface_potential_analysis/kernel/build.py:truncate_diagonal_noise_operator_list", "surface_potential_analysis/kernel/build.py:truncate_noise_operator_list"]}
{"id": "C28", "title": "Unfurling a wavepacket puts every component at its own momentum", "statement": "unfurl_wavepacket maps the component of Bloch sample s and in-cell frequency k to the supercell frequency ns*k + s (signed frequencies, modulo ns*nk) per axis, using every frequency exactly once, scaled by 1/sqrt(number of samples). In position space the result is the average over the samples of plane wave times cell-periodic state, for any orthonormal basis of the states; inner products are averaged over the samples, so normalised samples give a normalised state. This needs a list basis of transformed (momentum) type: with a position-type list basis the samples are mixed.", "quantifier": "every list shape and state shape in any number of axes, every basis of the states, all data", "why_tests_cant": "all parities of both shapes", "anchors": ["surface_potential_analysis/wavepacket/eigenstate_conversion.py:_unfurl_momentum_basis_wavepacket", "surface_potential_analysis/wavepacket/eigenstate_conversion.py:unfurl_wavepacket"]}
{"id": "C29", "title": "Wavepacket samples are the signed fractions and hold the eigenstates there", "statement": "get_wavepacket_sample_fractions returns f/n for the sample whose list-basis state is the plane wave of signed frequency f on n points, and generate_wavepacket stores for sample i and band b a normalised eigenvector and the eigenvalue number offset+step*b of the Hamiltonian at the fraction of sample i, the bands of one sample being orthonormal; no samples, no bands or bands beyond the number of states raise. A list basis of position type (odd length) gets fraction zero for every sample.", "quantifier": "every list basis of plane-wave type, every Hermitian family of Hamiltonians, every band selection", "why_tests_cant": "a test fixes one shape and one Hamiltonian", "anchors": ["surface_potential_analysis/wavepacket/wavepacket.py:get_wavepacket_sample_fractions", "surface_potential_analysis/wavepacket/wavepacket.py:generate_uneven_wavepacket", "surface_potential_analysis/wavepacket/wavepacket.py:generate_wavepacket"]}
{"id": "C30", "title": "Localisation with row-orthonormal operators preserves orthonormality", "statement": "get_localized_wavepackets combines the bands at each Bloch sample with the matrix of that sample; a matrix with orthonormal rows sends orthonormal bands to orthonormal bands. get_localized_hamiltonian_from_eigenvalues is Hermitian at every sample for real energies, keeps the trace for unitary matrices, and its entry (i, j) is <w_j|H|w_i> (the transpose of the matrix of H between the localised states). get_identity_operator is the identity exactly when the numbers of bands and samples agree.", "quantifier": "every number of bands, localised bands and samples, every operator and all data", "why_tests_cant": "all matrices", "anchors": ["surface_potential_analysis/wavepacket/localization_operator.py:get_localized_wavepackets", "surface_potential_analysis/wavepacket/localization_operator.py:get_localized_hamiltonian_from_eigenvalues"]}
{"id": "C31", "title": "Projection localisation yields the closest orthonormal states", "statement": "For every singular value decomposition of the overlap matrix and not more projections than bands, the operator of get_localization_operator_for_projections has orthonormal rows at every sample (unitary for equal numbers), the overlap matrix of the localised states with the projections is Hermitian and positive semidefinite, and the localised states are the closest to the projections among all orthonormal combinations of the bands. With more projections than bands the localised states are never orthonormal.", "quantifier": "every set of projections and Bloch states, every list basis and every orthonormal state basis", "why_tests_cant": "all matrices", "anchors": ["surface_potential_analysis/wavepacket/localization/_projection.py:get_localization_operator_for_projections"]}
{"id": "C32", "title": "Tight-binding localisation fixes the phase and nothing else", "statement": "localize_tightly_bound_wavepacket_idx multiplies the state of each sample by one unit phase so that the Bloch wave of every sample has the requested angle and its old modulus at the chosen point, wherever that point lies; a flat index outside the cell raises.", "quantifier": "every wavepacket in an orthonormal state basis, every point and angle", "why_tests_cant": "a test fixes one wavepacket and one point", "anchors": ["surface_potential_analysis/wavepacket/localization/_tight_binding.py:localize_tightly_bound_wavepacket_idx"]}
{"id": "C33", "title": "The momentum-basis Hamiltonian is the potential plus the free-particle energies", "statement": "total_surface_hamiltonian never raises for a stacked basis with orthonormal states. Its matrix element between states i and j is the sum over grid points of conj(b_i) V b_j plus the sum over the wave vectors q of the grid (shifted by the Bloch fraction) of <b_i|q> hbar^2|q|^2/(2m) <q|b_j>. hamiltonian_from_mass is diagonal in momentum with these energies, non-negative and zero only for q = 0. For a real potential the Hamiltonian is Hermitian, its eigenvalues are real and none lies below the smallest value of the potential. Adding a constant to the potential adds that constant times the identity. With zero potential in a complete basis every plane wave is an eigenstate with its free energy.", "quantifier": "every number of axes and lattice vectors, every basis with orthonormal states (truncated or not), every potential, mass, hbar and Bloch fraction", "why_tests_cant": "all potentials, lattices and bases; a spectral bound over all eigenvectors", "anchors": ["surface_potential_analysis/hamiltonian_builder/momentum_basis.py:hamiltonian_from_potential", "surface_potential_analysis/hamiltonian_builder/momentum_basis.py:hamiltonian_from_mass", "surface_potential_analysis/hamiltonian_builder/momentum_basis.py:hamiltonian_from_mass_in_basis", "surface_potential_analysis/hamiltonian_builder/momentum_basis.py:total_surface_hamiltonian"]}
{"id": "C34", "title": "The continuous potential interpolates the grid values", "statement": "get_continuous_potential always returns a function; at every grid point it returns the value of the potential there; it is periodic under every lattice vector. If every axis has an odd number of points it is real everywhere for a real potential. With an even number of points it is not: the potential (1, -1) on two points gives -i at a quarter of the lattice vector, although the return type is a float.", "quantifier": "every number of axes, lattice, basis with orthonormal states, potential and real point", "why_tests_cant": "all potentials", "anchors": ["surface_potential_analysis/potential/conversion.py:get_continuous_potential"]}
{"id": "C35", "title": "Potential truncation is undone only for n = 1", "statement": "For the default n = 1 and any energy above -offset - cutoff, undo_truncate_potential(truncate_potential(E)) = E. For n >= 2 (and E >= -offset) the pair gives E back exactly when E = -offset or 1 + ((E+offset)/cutoff)^n = e, and nowhere else. For every n >= 1 truncation is strictly increasing, never raises an energy, and keeps at least the fraction 1/(1+y^n) of E + offset, y = (E+offset)/cutoff. n = 0 raises.", "quantifier": "every cutoff > 0, offset, exponent and energy", "why_tests_cant": "real-valued parameters", "anchors": ["surface_potential_analysis/potential/potential.py:truncate_potential", "surface_potential_analysis/potential/potential.py:undo_truncate_potential"]}
{"id": "C36", "title": "normalize_potential shifts the minimum to zero", "statement": "The normalised potential has minimum exactly zero (complex values are ordered by real, then imaginary part), differences between points are unchanged, and normalising twice changes nothing. Only an empty potential raises.", "quantifier": "every potential, real or complex", "why_tests_cant": "all data", "anchors": ["surface_potential_analysis/potential/potential.py:normalize_potential"]}
{"id": "C37", "title": "Tunnelling rate equations conserve probability", "statement": "get_tunnelling_m_matrix of a rate matrix A has A[j, i] at (i, j) off the diagonal and minus the total rate of leaving the site on it, whatever the diagonal of A; every column sums to zero, so evolution conserves probability. For real non-negative rates every eigenvalue is zero or has negative real part. (The call also sets the diagonal of the caller's A to zero.)", "quantifier": "every rate matrix with non-negative entries", "why_tests_cant": "all rate matrices", "anchors": ["surface_potential_analysis/dynamics/incoherent_propagation/tunnelling_matrix.py:get_tunnelling_m_matrix", "surface_potential_analysis/dynamics/incoherent_propagation/eigenstates.py"]}
{"id": "C38", "title": "The A matrix places each jump rate on translated neighbours", "statement": "get_a_matrix_from_jump_matrix (with n_bands given) has at ((x, b0), (y, b1)) the sum of jump[b0, b1, h] over all hops h with y = x + shift(h) periodically. It is invariant under translating both sites, and the total over all y is the sum of the nine rates. With at least three cells per axis every hop has its own entry, and sites that are not neighbours have rate zero. The call only works when n_bands is given and equal to the number of bands, or there is a single band.", "quantifier": "every lattice shape, number of bands, jump matrix", "why_tests_cant": "small lattices alias different hops onto the same neighbour", "anchors": ["surface_potential_analysis/dynamics/incoherent_propagation/tunnelling_matrix.py:get_a_matrix_from_jump_matrix", "surface_potential_analysis/dynamics/util.py"]}
{"id": "C39", "title": "Schrodinger evolution by eigenstates is unitary and a group action", "statement": "solve_schrodinger_equation_decomposition returns at each requested time the evolution of the initial state: the state itself at t=0, all inner products conserved, t then s equal to t+s, linear, and satisfying i hbar d/dt psi = H psi. The same for the solver with a real diagonal operator, after converting the state to its basis.", "quantifier": "every Hamiltonian eigendecomposition, initial state and time list", "why_tests_cant": "all times and states", "anchors": ["surface_potential_analysis/dynamics/schrodinger/solve.py:solve_schrodinger_equation_decomposition", "surface_potential_analysis/dynamics/schrodinger/solve.py:solve_schrodinger_equation_diagonal"]}
{"id": "C40", "title": "The Fey-model ISF is a proper decay", "statement": "For positive rates, calculate_isf_fey_model_112bar, and calculate_isf_fey_model_110 unless cos(a dk/2) = -1/2, are the total occupation at momentum dk of the classical two-site jump model started from its equilibrium: they are 1 at t=0, positive, never increase with time, and are 1 for all times without momentum transfer. When cos(a dk/2) = -1/2 the 110 function divides by zero.", "quantifier": "every pair of positive rates, every momentum transfer (away from the removable singularity) and every time", "why_tests_cant": "real-valued parameters", "anchors": ["surface_potential_analysis/dynamics/isf.py:calculate_isf_fey_model_110", "surface_potential_analysis/dynamics/isf.py:calculate_isf_fey_model_112bar"]}
{"id": "C41", "title": "Banded operators rebuild the original", "statement": "The diagonals produced for the banded solver put element op[(i+j) mod n, j] at position (i, j): every matrix element appears exactly once, so the operator can be rebuilt exactly. Discarding diagonals below the threshold and cleaning values changes the real and the imaginary part of every element by at most the threshold (the modulus may change by more); offsets are increasing and below n.", "quantifier": "every size and operator", "why_tests_cant": "all matrices", "anchors": ["surface_potential_analysis/dynamics/stochastic_schrodinger/solve.py:_get_operator_diagonals", "surface_potential_analysis/dynamics/stochastic_schrodinger/solve.py:_get_banded_operator"]}
{"id": "C42", "title": "What a pickle-cached function returns, over every history and schedule", "statement": "(a) If calls sharing a cache path have the same value, then over every history of calls (each of the four call types), kills at any byte of the dump and removals of files, every returned value is the value of the function. (b) If they do not, the last saved value is returned for all of them. (c) Starting without a file, uninterrupted load_or_call_cached calls evaluate the function exactly once per path, unless it returns None, which is evaluated every time. (d) A process killed while dumping, or a result that cannot be pickled, leaves a file on which every later load raises without evaluating, until the file is removed or overwritten. (e) A function that raises leaves the disk unchanged; a missing cache directory raises after the evaluation. (f) With several processes at once, if at most one saves, every returned value is right at every moment; with two savers a third process can load a value that was never computed; once all have finished unkilled the file is whole.", "quantifier": "every deterministic function, every path function, every history, every kill point, every schedule of any number of processes", "why_tests_cant": "all histories and crash points", "anchors": ["surface_potential_analysis/util/decorators.py:CachedFunction", "surface_potential_analysis/util/decorators.py:cached"]}
{"id": "C43", "title": "npy_cached: loads with the .npy suffix, evaluates on every call without it", "statement": "With a path ending in .npy the first call evaluates, returns and saves, and every later call loads the stored array without evaluating, except that an object array raises unless load_pickle is set (the default is unset). With any other path numpy saves under path + '.npy' while the lookup uses path, so in every history every call evaluates the function. A save interrupted at any byte, or an object array with save_pickle=False, leaves a file on which every later call raises.", "quantifier": "every path, every array, every history of calls and kill points", "why_tests_cant": "file naming behaviour across all paths", "anchors": ["surface_potential_analysis/util/decorators.py:npy_cached"]}
{"id": "C44", "title": "decrement_brillouin_zone folds towards the origin, lowers the zone and terminates", "statement": "For every three dimensional lattice and every integer momentum index, decrement_brillouin_zone returns the index itself if no Bragg plane of the 26 neighbouring reciprocal lattice points is crossed by more than the tolerance (1e-5 of the shortest momentum spacing), and otherwise the index minus the reciprocal lattice vector of the crossed plane nearest to the point; the result is then strictly nearer to the origin and in a strictly lower Brillouin zone, and repeating the call reaches a fixed point after at most as many calls as zones were crossed. It does not lower the zone by exactly one, its fixed points need not lie in the first zone of a skew lattice, and it raises unless there are exactly three axes.", "quantifier": "every three dimensional lattice, every grid shape and every integer index; every number of axes for the raising", "why_tests_cant": "lattices and indices are unbounded and the zone number compares infinitely many lattice points", "anchors": ["surface_potential_analysis/stacked_basis/brillouin_zone.py:decrement_brillouin_zone", "surface_potential_analysis/stacked_basis/brillouin_zone.py:decrement_brillouin_zone_3d", "surface_potential_analysis/stacked_basis/brillouin_zone.py:get_bragg_plane_distance", "surface_potential_analysis/stacked_basis/brillouin_zone.py:fold_point_in_bragg_plane"]}
{"id": "C45", "title": "Probabilities are normalised", "statement": "from_state_vector gives non-negative numbers summing to the squared norm; sum_probability and sum_probabilities over any set of axes give, at each remaining index, the sum over the removed axes, with a basis of matching size, and preserve the total; averaging over the list or over list axes gives the mean and preserves normalisation; get_probability picks the item. With axis=None sum_probability sums everything but sum_probabilities only sums the first two axes and raises for one-axis bases; the basis returned by sum_probability is a plain tuple, so the result cannot be summed again.", "quantifier": "every state vector and list, any number of axes, every axis selection", "why_tests_cant": "all shapes, axis sets and data", "anchors": ["surface_potential_analysis/probability_vector/probability_vector.py"]}
{"id": "C46", "title": "Displacements on a skew lattice are not periodic (finding)", "statement": "get_displacements_matrix_x_stacked wraps the cartesian component x[axis] by the length |delta_x[axis]| of a lattice vector. On a non-orthogonal lattice two pairs of points with the same index difference modulo the shape can therefore get different displacements, even up to sign.", "quantifier": "existence of a lattice, a shape and two pairs of grid points", "why_tests_cant": "The tests only use orthogonal cells; the claim that translation-equivalent pairs have equal displacement is about every pair on every lattice.", "anchors": ["surface_potential_analysis/operator/build.py:_get_displacements_matrix_x_along_axis", "surface_potential_analysis/operator/build.py:_wrap_displacements"]}
{"id": "C47", "title": "get_displacements_matrix_x does not return a displacement matrix (finding)", "statement": "For a basis with one spatial dimension, get_displacements_matrix_x returns n values instead of n*n (so any reshape to (n, n) raises for n > 1); all of them are equal and none is positive.", "quantifier": "every cell length, every n > 1 and every origin", "why_tests_cant": "A single call shows one size; that no size, length or origin gives a usable matrix is a universal statement.", "anchors": ["surface_potential_analysis/operator/build.py:get_displacements_matrix_x"]}
{"id": "C48", "title": "Converting a real vector to its own basis reinterprets memory (finding)", "statement": "convert_vector of a float64 vector agrees with converting the same values as complex numbers whenever the target is a different basis object. When the target is the same object, the values are reinterpreted pairwise as complex numbers: the result has half the length for even sizes (component i is v[2i] + 1j*v[2i+1]) and a ValueError is raised for odd sizes.", "quantifier": "every non-stacked basis, every real vector, every target basis", "why_tests_cant": "all sizes and all data; the outcome depends on object identity, which the type does not show", "anchors": ["surface_potential_analysis/basis/basis_like.py:BasisLike.__convert_vector_into__"]}
{"id": "C49", "title": "BasisUtil.vectors are the basis states", "statement": "Row k of BasisUtil(b).vectors holds the values of basis state k at the points of the fundamental grid: delta functions, normalised plane waves with signed frequency, sampled points, explicit vectors, and products for stacked bases.", "quantifier": "every basis built from the library's classes, every state, every grid point", "why_tests_cant": "all nested bases and sizes", "anchors": ["surface_potential_analysis/basis/util.py:BasisUtil.vectors"]}
{"id": "C50", "title": "__into_transformed__ and __from_transformed__ are components in the momentum basis", "statement": "For every basis class, __into_transformed__ gives the components in the plane-wave basis of the fundamental grid (one plane-wave axis per axis of a stacked basis) and __from_transformed__ projects such components onto the basis. The method of the BasisUtil wrapper of a stacked basis does not: it does one Fourier transform over the flattened index.", "quantifier": "every basis built from the library's classes, every vector", "why_tests_cant": "all nested bases, all vectors", "anchors": ["surface_potential_analysis/basis/basis_like.py:AsTransformedBasis", "surface_potential_analysis/basis/basis_like.py:AsFundamentalBasis", "surface_potential_analysis/basis/stacked_basis.py:TupleBasis.__into_transformed__", "surface_potential_analysis/basis/util.py:BasisUtil"]}
{"id": "C51", "title": "A function of an operator does not depend on the eigendecomposition", "statement": "apply_function_to_operator and exp_operator return the same operator whichever eigenvectors and eigenvalue order the eigen-solver returns; f(A) has A's eigenvectors with eigenvalues f(lambda); f(A)g(A) = (fg)(A); the identity function returns A; exp(A)exp(-A) = 1; exp of an anti-Hermitian operator is unitary. The result is given in the bases of the operator (for the exponential, twice in the row basis).", "quantifier": "every size, every diagonalisable operator, every function, every valid solver output", "why_tests_cant": "all matrices and all solver outputs (degenerate eigenvalues included)", "anchors": ["surface_potential_analysis/operator/operator.py:apply_function_to_operator", "surface_potential_analysis/operator/operations.py:exp_operator"]}
{"id": "C52", "title": "Operator arithmetic and stored array shapes", "statement": "add_operator of operators stored with the same array shape adds entries; matmul_operator multiplies them and returns data with two axes; hence adding a product to an operator with flat data (the shape the rest of the library produces) raises for every size above one. apply_operator_to_state returns the image of the state divided by its norm, together with that norm. Sums, differences and multiples are given in the bases of the first operator, commutators in the row basis of the first and the column basis of the second.", "quantifier": "every size, all data", "why_tests_cant": "all sizes", "anchors": ["surface_potential_analysis/operator/operator.py:add_operator", "surface_potential_analysis/operator/operator.py:matmul_operator", "surface_potential_analysis/operator/operator.py:apply_operator_to_state"]}
{"id": "C53", "title": "Sums and averages of diagonal operators over axes", "statement": "sum_diagonal_operator_over_axes and average_eigenvalues(_list) over a set of distinct non-negative axes return, at each remaining index, the sum (mean) over the removed axes, and a basis with exactly the remaining axes. Without an axis argument the averages run over the first two axes only and raise for a one-axis basis; a negative axis is summed but not removed from the basis.", "quantifier": "any number of axes, every axis set, all data", "why_tests_cant": "all shapes and axis sets", "anchors": ["surface_potential_analysis/operator/operator.py:sum_diagonal_operator_over_axes", "surface_potential_analysis/operator/operator.py:average_eigenvalues", "surface_potential_analysis/operator/operator.py:average_eigenvalues_list"]}
{"id": "C54", "title": "as_flat_operator returns a basis that does not fit its data", "statement": "For a list of n0 diagonal operators on a basis of size n1, as_flat_operator returns data with n0*n1 entries in a basis of n0*n1*n1 states; they agree only when n1 = 1.", "quantifier": "every list of diagonal operators", "why_tests_cant": "all sizes", "anchors": ["surface_potential_analysis/operator/operator_list.py:as_flat_operator"]}
{"id": "C55", "title": "Truncating a noise kernel", "statement": "truncate_noise_kernel keeping all n^2 operators returns the kernel unchanged. truncate_diagonal_noise_kernel, on n > 1 points, never returns an n x n kernel: whatever it returns has a single entry.", "quantifier": "all kernels, sizes, truncations, and all results of eigh and argsort allowed by their contracts", "why_tests_cant": "the result depends on the eigenvectors and tie order numpy returns; tests see one of them", "anchors": ["surface_potential_analysis/kernel/build.py:truncate_noise_kernel", "surface_potential_analysis/kernel/build.py:truncate_diagonal_noise_kernel"]}
{"id": "C56", "title": "Temperature correction of noise operators", "statement": "get_temperature_corrected_noise_operators returns L - [H, L]/(4 k T) for every operator, in the basis of H, with unchanged eigenvalues; the diagonal version does the same with H converted to the basis of the operators.", "quantifier": "all Hamiltonians, operator lists, bases and non-zero temperatures", "why_tests_cant": "an identity between matrices for every basis pair and every operator", "anchors": ["surface_potential_analysis/kernel/build.py:get_temperature_corrected_noise_operators", "surface_potential_analysis/kernel/build.py:get_temperature_corrected_diagonal_noise_operators"]}
{"id": "C57", "title": "Taylor expanded noise operators", "statement": "Given the coefficients of an even polynomial, of which the first k (at most ten) exceed 1e-8 of the largest and the next does not, the periodic noise operators have a kernel that is a cosine series of the displacement with one cosine per coefficient, and the series has the value and all derivatives of the polynomial up to order 2k-1; no other series of the first k cosines has. For a gaussian the series has the derivatives of a^2 exp(-d^2/(2 lambda^2)) up to that order. With eleven significant terms it has not: the powers no longer fit 64 bits. Stacked over several axes the kernel is the product of the series of each axis, so a point's correlation with itself is a^2 raised to the number of axes. The lorentzian operators carry two eigenvalues more than operators, so no kernel can be computed from them. The linear gaussian operators have a kernel of the product of the two displacements from the middle of the axis, which is not the gaussian of their distance. On several axes they have the product of these kernels.", "quantifier": "all coefficient lists, numbers of points and terms, amplitudes, widths, lattice lengths, and any correct linear solver", "why_tests_cant": "The order of agreement of an approximation is a statement about derivatives at a point; sampling the kernel shows only that it looks similar, and the overflow changes the highest derivatives alone.", "anchors": ["surface_potential_analysis/kernel/solve/_taylor.py: get_periodic_noise_operators_explicit_taylor_expansion, get_linear_noise_operators_explicit_taylor_expansion", "surface_potential_analysis/kernel/gaussian.py: get_periodic_gaussian_operators_explicit_taylor, get_linear_gaussian_noise_operators_explicit_taylor, get_periodic_gaussian_operators_explicit_taylor_stacked", "surface_potential_analysis/kernel/lorentzian.py: get_lorentzian_operators_explicit_taylor", "surface_potential_analysis/kernel/gaussian.py: get_linear_gaussian_operators_explicit_taylor_stacked"]}
{"id": "C58", "title": "Noise operators fitted to an isotropic kernel", "statement": "The operators fitted with degree n to an isotropic kernel along one axis have, between any two points whose shortest displacement is at most n, the mean of the kernel at that displacement and at the opposite one. So with the default degree a symmetric kernel is reproduced between all points, and one that is not symmetric is not reproduced. For several axes, a kernel that is symmetric along every axis gives the kernel rebuilt from its axis kernels, which is the kernel itself if it is a product.", "quantifier": "all numbers of points, complex kernels, degrees and shapes, and any correct least squares fit", "why_tests_cant": "A least squares fit has no closed form to compare with; the claim must hold for whichever minimiser is returned, also when the fit has more coefficients than distinct points.", "anchors": ["surface_potential_analysis/kernel/solve/_taylor.py: get_periodic_noise_operators_real_isotropic_taylor_expansion, get_periodic_noise_operators_real_isotropic_stacked_taylor_expansion"]}
{"id": "C59", "title": "Kernels of operators with real or non-negative eigenvalues", "statement": "The diagonal kernel of noise operators is Hermitian if the eigenvalues are real and positive semidefinite if they are non-negative.", "quantifier": "all operator lists and all vectors", "why_tests_cant": "positivity quantifies over all vectors", "anchors": ["surface_potential_analysis/kernel/kernel.py:get_diagonal_kernel_from_diagonal_operators"]}
{"id": "C60", "title": "Noise operators built axis by axis", "statement": "get_diagonal_noise_operators_from_axis gives operators whose kernel is the product of the kernels of the axes. get_periodic_noise_operators_real_isotropic_stacked_fft therefore rebuilds the product of the axis kernels at the periodic displacement, and the kernel itself if it is a product kernel. get_fundamental_axis_kernels_from_isotropic takes the axis kernels of the kernel whose value at a point is the amplitude there of the data read as a vector in their basis.", "quantifier": "all numbers of axes, all sizes, all kernels with nonzero value at zero displacement", "why_tests_cant": "any number of axes; tests use at most three", "anchors": ["surface_potential_analysis/kernel/kernel.py:get_diagonal_noise_operators_from_axis", "surface_potential_analysis/kernel/solve/_fft.py:get_periodic_noise_operators_real_isotropic_stacked_fft", "surface_potential_analysis/kernel/solve/_util.py:get_fundamental_axis_kernels_from_isotropic"]}
{"id": "C61", "title": "Bloch states are the plane wave times the cell-periodic state and are orthonormal", "statement": "get_wavepacket_state_vector and get_bloch_states return, for sample s (and band b), the state of the supercell whose value at every point is (1/sqrt(number of samples)) * plane wave of the sample's frequency * value of the cell-periodic state at the equivalent point of the cell. States of different samples are orthogonal, within one sample inner products are those of the cell-periodic states, and unfurling adds the states up with weight 1/sqrt(number of samples). A flat index outside the range raises, negative ones included.", "quantifier": "every list shape, every basis of the states, any number of bands, all data, every point", "why_tests_cant": "all parities of both shapes and all bases", "anchors": ["surface_potential_analysis/wavepacket/get_eigenstate.py:get_wavepacket_state_vector", "surface_potential_analysis/wavepacket/get_eigenstate.py:get_bloch_states", "surface_potential_analysis/wavepacket/get_eigenstate.py:_get_sampled_basis", "surface_potential_analysis/wavepacket/eigenstate_conversion.py:unfurl_wavepacket"]}
{"id": "C62", "title": "Wannier states are translated copies and orthonormal", "statement": "get_wannier_states returns, for band i and cell R, the sum over the samples of the localised Bloch waves of band i moved by R cells; for orthonormal bands, an operator with orthonormal rows and state axes with as many states as points, the states of all bands and cells are orthonormal. With fewer states than points the shift is not a whole cell and states of different cells overlap.", "quantifier": "every sample shape, state basis, localisation operator and wavepacket list", "why_tests_cant": "a test fixes sizes and data", "anchors": ["surface_potential_analysis/wavepacket/get_eigenstate.py:get_wannier_states"]}
{"id": "C63", "title": "Wavepacket lists split, collect and subsample without moving data", "statement": "get_wavepacket returns the data of the band with Python index rules, splitting a list and collecting the parts with as_wavepacket_list gives the list back, and convert_wavepacket_to_shape keeps at every new sample the states of the old sample with the same Bloch fraction and raises if the old shape is not a multiple. A generator passed to as_wavepacket_list loses its first wavepacket, and the list basis attached by convert_wavepacket_to_shape is of position type, whose sample fractions differ.", "quantifier": "every list, index, shape and subshape", "why_tests_cant": "a test fixes shapes and indices", "anchors": ["surface_potential_analysis/wavepacket/wavepacket.py:get_wavepacket", "surface_potential_analysis/wavepacket/wavepacket.py:as_wavepacket_list", "surface_potential_analysis/wavepacket/wavepacket.py:wavepacket_list_into_iter", "surface_potential_analysis/wavepacket/conversion.py:convert_wavepacket_to_shape"]}
{"id": "C64", "title": "The full Wannier Hamiltonian holds the matrix elements between Wannier states", "statement": "get_full_wannier_hamiltonian returns at row (cell R, band k) and column (cell R', band l) the element <w_{l,R'}|H|w_{k,R}> of the Hamiltonian with the given energies on the Bloch states. Hence it is the transpose of the matrix of H, and its row order (cell, band) differs from the order (band, cell) of the Wannier states.", "quantifier": "every sample shape, energies, localisation operator and orthonormal bands on full state axes", "why_tests_cant": "a test fixes sizes and data", "anchors": ["surface_potential_analysis/wavepacket/get_eigenstate.py:get_full_wannier_hamiltonian"]}
{"id": "C65", "title": "get_potential_derivative is the partial derivative", "statement": "The continuous function of get_potential_derivative(V, axis) is at every point the partial derivative, along the Cartesian component that axis names, of the continuous function of V. Negative axis numbers count from the end; any other number raises.", "quantifier": "every number of axes, lattice, basis with orthonormal states, potential, component and real point", "why_tests_cant": "a derivative at every real point for every potential", "anchors": ["surface_potential_analysis/potential/conversion.py:get_potential_derivative", "surface_potential_analysis/potential/conversion.py:get_continuous_potential"]}
{"id": "C66", "title": "Tunnelling simulations solve the rate equation and reach equilibrium", "statement": "calculate_tunnelling_simulation_state of the rate equation matrix returns, for every list of times, the solution of dp/dt = M p with the given initial state; the total is conserved and probability distributions stay probability distributions at all later times. If every site can be reached from every other, calculate_equilibrium_state is a strictly positive distribution, it is stationary, it is the only stationary state of total one, and every simulation from total one converges to it.", "quantifier": "every non-negative rate matrix whose rate equation is diagonalisable, every initial state and list of times", "why_tests_cant": "all times and the limit of infinite time; all rate matrices and initial states", "anchors": ["surface_potential_analysis/dynamics/incoherent_propagation/eigenstates.py:calculate_tunnelling_simulation_state", "surface_potential_analysis/dynamics/incoherent_propagation/eigenstates.py:calculate_equilibrium_state", "surface_potential_analysis/dynamics/incoherent_propagation/eigenstates.py:calculate_tunnelling_eigenstates"]}
{"id": "C67", "title": "Which rates the collapse operators of a rate matrix produce", "statement": "The operators of get_collapse_operators_from_a_matrix make populations jump from j to i at the square of the rate given for i to j, so in general not at the rates of the matrix. The operators of get_simplified_collapse_operators_from_a_matrix, for a translation invariant matrix on a lattice of at least three cells per axis, make populations jump to a neighbour in another band at factor times the given rate when that is at least one and not at all otherwise; jumps within a band are left out.", "quantifier": "every size, rate matrix and factor", "why_tests_cant": "all matrices; a symmetric matrix of rates 0 and 1 hides both the square and the transposition", "anchors": ["surface_potential_analysis/dynamics/stochastic_schrodinger/solve.py:get_collapse_operators_from_a_matrix", "surface_potential_analysis/dynamics/stochastic_schrodinger/solve.py:get_simplified_collapse_operators_from_a_matrix"]}
{"id": "C68", "title": "Scattering functions of localised occupations", "statement": "calculate_isf_approximate_locations with a momentum reciprocal to the supercell is the sum over all cells and bands of the final occupation times the phase exp(i dk . (position - mean initial position)): wrapping the displacement into the supercell does not matter. For any momentum its modulus is at most one when the final occupations are a distribution, and it is their total without momentum transfer. It fails exactly when the initial occupations sum to zero.", "quantifier": "every cell, lattice shape, band layout, occupations and momentum", "why_tests_cant": "all geometries and occupations", "anchors": ["surface_potential_analysis/dynamics/isf.py:calculate_isf_approximate_locations", "surface_potential_analysis/dynamics/isf.py:_calculate_approximate_locations"]}
{"id": "C69", "title": "Oscillator states solve the oscillator", "statement": "The function that evaluates harmonic oscillator states returns, for every level, mass and frequency, a solution of the stationary Schrodinger equation with energy hbar*omega*(n+1/2), and different levels are orthonormal over the whole line. The compiled implementation returns the same values for levels up to 20, and its Hermite polynomial values are exact up to degree 25. (At level 21 its 64 bit factorial overflows and the state is no longer normalised; at degree 26 its coefficients overflow.)", "quantifier": "every level, every positive mass, frequency and value of hbar, every point of the line", "why_tests_cant": "Orthonormality is an integral over an unbounded line and the differential equation holds at uncountably many points, for infinitely many levels; tests evaluate a few points of a few levels.", "anchors": ["surface_potential_analysis/stacked_basis/sho_basis.py:calculate_sho_wavefunction", "lib/hamiltonian_generator/src/lib.rs:factorial", "lib/hamiltonian_generator/src/lib.rs:hermite_coefficient", "lib/hamiltonian_generator/src/lib.rs:hermite_val", "lib/hamiltonian_generator/src/lib.rs:calculate_sho_wavefunction"]}
{"id": "C70", "title": "Where the discretised oscillator is centred", "statement": "The oscillator built on a grid axis measures the distance of each grid point as the projection of its position plus the configured origin onto the axis; its potential is never negative and vanishes exactly where that projection does, i.e. it is centred on minus the configured origin (not on the origin, as described). The squared components of the states of the infinite oscillator are the probability density at that distance times the grid spacing.", "quantifier": "every axis vector in any dimension, number of points, origin, mass, frequency, level and grid point", "why_tests_cant": "Tests use an origin of zero or one axis; the sign convention and the scaling with the spacing have to hold for every axis vector and origin.", "anchors": ["surface_potential_analysis/stacked_basis/sho_basis.py:calculate_x_distances", "surface_potential_analysis/stacked_basis/sho_basis.py:get_sho_potential_basis_config", "surface_potential_analysis/stacked_basis/sho_basis.py:infinate_sho_basis_3d_from_config"]}
{"id": "C71", "title": "Compiled off-diagonal energies are the matrix of the potential", "statement": "Given the Fourier coefficients of a potential over the surface plane, the compiled off-diagonal energies are a square matrix whose element (i, j) is the matrix element of the whole potential between the i-th and j-th basis state, where a state is a plane wave times a plane wave times a z state, in row-major order of (kx0, kx1, z) with FFT ordering of the plane waves. For oscillator z states (at most 21 of them) and for explicit real z states this holds exactly; for explicit complex z states the states that enter are the complex conjugates, so the matrix does not belong to the basis. The matrix of a real potential is Hermitian.", "quantifier": "all grid sizes, resolutions, potentials, spacings, offsets, masses and frequencies, all z states", "why_tests_cant": "The compiled code adds four wrapped indices per element; one wrong sign or wrap shows only for particular sizes and potentials, and for complex states only when the test states are complex.", "anchors": ["lib/hamiltonian_generator/src/lib.rs: calculate_off_diagonal_energies, calculate_off_diagonal_energies2, SHOWavefunction, x_coordinates"]}
{"id": "C72", "title": "The explicit z Hamiltonian is the full Hamiltonian in its basis", "statement": "The Hamiltonian in plane waves and explicit z states is built whenever the potential has at least twice (resolution minus one) points along each surface axis, and is an error otherwise. Its basis is orthonormal and its z states are the lowest eigenstates of the one-dimensional Hamiltonian of the chosen configuration. If these states are real its element (i, j) is kinetic energy plus whole potential between basis states i and j, whatever configuration was chosen; for complex ones the part of the potential beyond the configuration enters between the conjugated states and the matrix does not belong to the returned basis. For real potentials it is Hermitian. The Hamiltonian declared as fundamental has the same numbers in a basis of the same waves on as many points as there are waves.", "quantifier": "all grids, lattices with z perpendicular to the surface, potentials, configurations, Bloch fractions, resolutions, and every valid diagonaliser", "why_tests_cant": "The phases of the eigenvectors are chosen by the diagonaliser; a test sees one choice, and one potential.", "anchors": ["surface_potential_analysis/hamiltonian_builder/explicit_z_basis.py: total_surface_hamiltonian, _SurfaceHamiltonianUtil", "surface_potential_analysis/hamiltonian_builder/explicit_z_basis.py: total_surface_hamiltonian_as_fundamental"]}
{"id": "C73", "title": "Compiled wavefunctions are Bloch functions", "statement": "The compiled wavefunction at a point is the sum over the basis states of coefficient times oscillator state at height z times the plane wave whose wave vector is the reciprocal lattice vector of the slot plus the given k; moving the point by either lattice vector multiplies it by exp(i k.d).", "quantifier": "all non-degenerate lattice vectors, resolutions, coefficients, wave vectors and points", "why_tests_cant": "Reciprocal vectors of skew lattices, wrapped orders and Bloch phases are only distinguishable for general lattices and points.", "anchors": ["lib/hamiltonian_generator/src/lib.rs: get_eigenstate_wavefunction, SurfaceHamiltonianUtil"]}
{"id": "C74", "title": "Fourier interpolation of complex values", "statement": "Interpolating a grid to new lengths along chosen axes gives an array whose resized axes have the new lengths and whose value at every point is the sum over the grid of value times a product, over the resized axes, of the sum of the old frequencies that the new axis has. If no axis gets shorter the result equals the grid wherever a new point coincides with an old one. A product of plane waves along the resized axes becomes the same waves on the new grid, or zero if one of the frequencies does not exist there. Without axes the sizes go to the last axes in reverse order, so the result does not have the documented shape.", "quantifier": "all shapes, values, new lengths (longer or shorter), and lists of distinct axes, counted from either end", "why_tests_cant": "Odd and even lengths, growing and shrinking, and the order of axes are handled by different slices; random tests with equal old and new parity or one axis do not separate them.", "anchors": ["surface_potential_analysis/util/interpolation.py: interpolate_points_fftn, pad_ft_points"]}
{"id": "C75", "title": "Fourier interpolation of real values", "statement": "Interpolating real values uses the same kernel as complex values for all axes but the last one named, and for that one the real kernel made of the frequencies 0..n/2 together with their negatives. If no axis gets shorter and the last axis has an odd length or keeps its length the result equals the grid at every shared point; if its length is even and grows, the alternating component along it is added once more, so the values change at the shared points. Interpolating along a single axis uses the same kernel; forcing symmetry changes no value; values symmetric under reflection stay so. Padding the half spectrum first does not change the inverse transform.", "quantifier": "all shapes, real values, new lengths and axes", "why_tests_cant": "The extra weight of the highest frequency appears only for even lengths that grow; symmetric inputs and equal lengths hide it.", "anchors": ["surface_potential_analysis/util/interpolation.py: interpolate_points_rfftn, interpolate_points_rfft, pad_ft_points_real_axis"]}
{"id": "C76", "title": "Sampled noise has the kernel as its covariance", "statement": "Noise sampled from a list of operators with non-negative eigenvalues has, for any random numbers of unit variance that are uncorrelated, hbar times the kernel of the operators as its covariance; different samples are uncorrelated and products without a conjugate average to zero. The same holds for noise sampled from a positive kernel without truncation. For eigenvalues of any sign or phase the covariance is that of their moduli, so operators with a negative eigenvalue do not reproduce their kernel. Split noise has one component per operator, each a multiple of its operator, and with the same random numbers the components add up to the noise.", "quantifier": "all lists of operators, numbers of samples, kernels, eigensolvers, sort orders and probability distributions with unit covariance", "why_tests_cant": "A covariance is an average over infinitely many draws; a test on finitely many samples only bounds it statistically.", "anchors": ["surface_potential_analysis/kernel/sample.py: sample_noise_from_diagonal_operators_split, diagonal_operator_list_from_diagonal_split, get_diagonal_split_noise_components, sample_noise_from_diagonal_operators, sample_noise_from_operators, sample_noise_from_diagonal_kernel"]}
{"id": "C77", "title": "Noise kernels built from a correlation function", "statement": "On a lattice whose vectors point along the coordinate axes, the isotropic kernel built from a correlation function holds, for the displacement x - y, the function's value at the distance between x and y in the periodic cell (the smallest distance to any periodic image), for any number of axes and points; the diagonal kernel made of it with the stacked conversion has this value at (x, y). For a lattice in any other orientation this fails, already for a square lattice that is turned. Building from a basis that is not stacked, and hence every gaussian axis kernel, raises unless there is only one point. The gaussian noise kernel is right for one axis, but for two axes it is neither Hermitian nor a function of the distance.", "quantifier": "all correlation functions, aligned lattices of any dimension, numbers of points and pairs of points", "why_tests_cant": "The distance is a minimum over infinitely many periodic images, and the claim ranges over every function and every grid.", "anchors": ["surface_potential_analysis/kernel/build.py: build_isotropic_kernel_from_function, build_isotropic_kernel_from_function_stacked, build_axis_kernel_from_function_stacked", "surface_potential_analysis/operator/build.py: get_displacements_matrix_x, get_total_displacements_matrix_x_stacked", "surface_potential_analysis/kernel/gaussian.py: get_gaussian_isotropic_noise_kernel, get_gaussian_axis_noise_kernel, get_gaussian_noise_kernel"]}
{"id": "C78", "title": "Effective gaussian and lorentzian noise matches the friction", "statement": "For every friction, temperature and lambda factor f, the effective gaussian parameters satisfy lambda f = length of the shortest lattice vector and A^2 / lambda^2 = 2 eta kT / hbar^2. Along one axis every entry of the effective gaussian kernel differs from A^2 - (eta kT / hbar^2) r^2, the Caldeira-Leggett form at distance r, by at most (eta kT / hbar^2) r^4 / (4 lambda^2); the smallest entry is A^2 exp(-f^2/8), taken half a cell away, so the documented smallest value A^2 exp(-f^2/2) is never reached. The lorentzian parameters have the same ratio with half the length, but its kernel falls off twice as fast with the distance, A^2 - 2 (eta kT / hbar^2) r^2, and its smallest entry is A^2 / (1 + f^2). As a function of the displacement (get_effective_gaussian_isotropic_noise_kernel) the same holds on any number of axes.", "quantifier": "all lattices, frictions, temperatures and lambda factors; for the kernels all lengths, numbers of points and pairs of points", "why_tests_cant": "It is an inequality between real functions over a continuum of parameters and for all grids.", "anchors": ["surface_potential_analysis/kernel/gaussian.py: get_effective_gaussian_parameters, get_effective_gaussian_noise_kernel", "surface_potential_analysis/kernel/lorentzian.py: get_effective_lorentzian_parameter, get_lorentzian_isotropic_noise_kernel", "surface_potential_analysis/kernel/gaussian.py: get_effective_gaussian_isotropic_noise_kernel"]}
{"id": "C79", "title": "Gaussian noise operators reproduce the gaussian kernel", "statement": "On every aligned lattice, for every non-zero amplitude and width, the untruncated list of periodic gaussian noise operators exists, and its kernel at (x, y) is A^2 exp(-r^2 / (2 lambda^2)) for the distance r between x and y in the periodic cell; with the effective parameters this is (2 eta kT / hbar^2)(L^2 / 8) exp(-4 r^2 / L^2) for the shortest lattice vector of length L. The operators do not always describe positive noise: with the effective parameters on four points an eigenvalue is not a non-negative number, whatever the cell, friction and temperature.", "quantifier": "all aligned lattices of any dimension, grids, amplitudes, widths, frictions, temperatures and sort orders", "why_tests_cant": "The operators come out of Fourier transforms whose sizes and values range over all grids and parameters.", "anchors": ["surface_potential_analysis/kernel/gaussian.py: get_gaussian_noise_operators_periodic, get_effective_gaussian_noise_operators_periodic"]}
{"id": "C80", "title": "Noise kernels in another basis", "statement": "Converting a noise kernel to new bases writes the same kernel in the new bases: every entry is the kernel summed against the matrix elements of the operators |s><t| in the new bases, conjugated for the first index pair. The result does not depend on which operators the kernel was made from: the kernel of the converted operators is the converted kernel. Converting to the same basis changes nothing, a complete intermediate basis changes nothing, a conversion to a complete basis and back restores the kernel, and a positive kernel stays positive. A diagonal kernel is converted like the full kernel it stands for. All of this needs a row and a column basis of the same size: otherwise the diagonal conversion raises and the full conversion returns another kernel, even for the same basis. Isotropic kernels are converted as if they were state vectors, so that a conversion to momentum states does not give the kernel in that basis.", "quantifier": "all kernels and operator lists, pairs of bases of every kind with orthonormal states, all eigendecompositions", "why_tests_cant": "The conversion goes through an eigendecomposition that is only determined up to phases and degenerate subspaces, and the claim ranges over all pairs of bases.", "anchors": ["surface_potential_analysis/kernel/conversion.py: convert_kernel_to_basis, convert_noise_operator_list_to_basis, convert_diagonal_kernel_to_basis, convert_diagonal_noise_operator_list_to_basis, convert_isotropic_kernel_to_basis", "surface_potential_analysis/operator/conversion.py: convert_operator_list_to_basis, convert_diagonal_operator_list_to_basis"]}
{"id": "C81", "title": "Overlaps and projections handed to Wannier90", "statement": "The neighbours listed by Wannier90 are read exactly as written, wherever the block stands in the file and however its numbers are spaced. For every neighbour (k0, k1, G) and every pair of bands m, n the overlap written is the sum over the points of the unit cell of the conjugate of band m at k0 times exp(-iG.x) times band n at k1, in the amplitudes of the wavepackets that were passed in, whatever basis each axis has; along ignored axes G counts as zero. A sample and itself give the inner products of the bands, opposite neighbours give conjugate transposes. For every sample, band and projection the projection written is the inner product over the whole supercell of the Bloch wave of the band with the given state, listed with the projection fastest, then the band, then the sample, counted from one.", "quantifier": "all files with a neighbour block, all wavepackets with up to three axes in orthonormal bases of every kind, all ignored axes, all neighbours, all projections", "why_tests_cant": "The claim ranges over all texts, bases, shapes and lattice vectors; a transposed, conjugated or off-by-one overlap still localises symmetric test potentials.", "anchors": ["surface_potential_analysis/wavepacket/localization/_wannier90.py: _parse_nnk_points_file, _get_offset_bloch_state, _build_mmn_file_block, _build_mmn_file, _build_amn_file, _write_localization_files_wannier90"]}
{"id": "C82", "title": "Localisation operators read from Wannier90", "statement": "From a result file that lists a matrix U(k) for every sample, column by column, the operator read has U(k)[n,m] as coefficient of band n in localised state m at sample k: localising with it gives w_m(k) = sum_n U(k)[n,m] psi_n(k), the states Wannier90 asks for, and they are orthonormal when the bands are and U(k) is unitary. When bands are localised one at a time the combined operator does not mix bands and multiplies each band by its own factors.", "quantifier": "all result files, all numbers of samples and bands, all matrices, all wavepackets", "why_tests_cant": "A transposed or conjugated matrix, or samples read in another order, passes for symmetric or single-band tests; the claim ranges over all files.", "anchors": ["surface_potential_analysis/wavepacket/localization/_wannier90.py: _parse_u_mat_file_block, _get_localization_operator_from_u_mat_file, get_localization_operator_wannier90_individual_bands", "surface_potential_analysis/wavepacket/localization_operator.py: get_localized_wavepackets"]}
{"id": "C83", "title": "Symmetry operations on samples", "statement": "The reversal of an axis maps a sample to the one with the opposite component and undoes itself, for axes counted from either end. The exchange of two axes exchanges the components and undoes itself when the axes have the same length; otherwise it raises nothing and sends two different samples to the same one. The representative chosen for a sample is reached from it by the operations and is not larger. With one operation that undoes itself equivalent samples get the same representative; with several operations they need not, because each operation is applied once.", "quantifier": "all shapes, axes and samples, all lists of operations", "why_tests_cant": "The claim ranges over all shapes and all lists of operations; the failure needs three operations and a grid of at least five points.", "anchors": ["surface_potential_analysis/wavepacket/localization/_wannier90.py: x0_symmetry_op, x0x1_symmetry_op, _get_fundamental_k_points"]}
{"id": "C84", "title": "Overlaps of states and wavepackets", "statement": "The overlap of two wavepackets is, at every point of the supercell, the conjugate of the state the first one stands for times the state of the second; summed over the supercell it is the average over the samples of the inner products. For a list of states the overlap (j, i) at a point x is conj(psi_j(x)) psi_i(x - shift), with the shift counted in the flattened grid; without a shift it is Hermitian at every point and sums to the matrix of inner products. A shift along the first axis is the periodic translation along it; a shift along another axis is not. The overlaps of a list of wavepackets are those of the states they stand for. Converting overlaps to a complete basis keeps their value at every point. The conversion to momentum raises for every overlap. Selecting a pair by (row, column) or flat index gives that overlap. Two different overlaps never share the name of a cache file. An overlap converted to the position basis holds its values at the points of the grid. An overlap converted to the position basis holds its values at the points of the grid. An overlap converted to the position basis holds its values at the points of the grid. An overlap converted to the position basis holds its values at the points of the grid. An overlap converted to the position basis holds its values at the points of the grid. An overlap converted to the position basis holds its values at the points of the grid.", "quantifier": "all numbers of bands and samples, all shapes, all orthonormal bases of every kind, all data, all shifts, all pairs", "why_tests_cant": "Which factor is conjugated, which index is the row and in which direction a shift goes agree for real symmetric test states; the claim ranges over all bases, shapes and data.", "anchors": ["surface_potential_analysis/overlap/calculation.py: calculate_wavepacket_overlap, calculate_state_vector_list_overlap, calculate_wavepacket_list_overlap", "surface_potential_analysis/overlap/conversion.py: convert_overlap_to_basis, convert_overlap_to_momentum_basis", "surface_potential_analysis/overlap/overlap.py: get_single_overlap, get_overlap_cache_filename", "surface_potential_analysis/overlap/conversion.py: convert_overlap_to_position_basis"]}
{"id": "C85", "title": "Interpolation of overlaps in momentum", "statement": "At every reciprocal lattice vector of the supercell the interpolated overlap is sqrt(N) times the coefficient of the overlap in the momentum basis for the opposite wave vector, whatever the wrapping of the points. At zero it is the inner product of the states; for exchanged states and the opposite wave vector it is the conjugate; and for every wave vector at all it is bounded by the product of the norms. The interpolator in fractions agrees with it when all axes have the same number of points, and does not otherwise. get_overlap_momentum_interpolator_flat raises for every overlap, as the axis of one point it asks for is never made; given that axis, the interpolator without the last axis agrees with the full one when the last lattice vector is perpendicular to the first two components. With n points it keeps the n largest terms, and its error is at most the sum of the moduli of the others. The angular average over m samples is the mean over m - 1 directions in which the first one is counted twice: exact for isotropic overlaps, otherwise biased towards the first direction.", "quantifier": "all shapes, lattices, overlaps, wave vectors, numbers of points and samples", "why_tests_cant": "The claim ranges over all lattices and real wave vectors; the wrong divisor is invisible on grids with equal axes, and the bias of the average on isotropic overlaps.", "anchors": ["surface_potential_analysis/overlap/interpolation.py: get_overlap_momentum_interpolator_k_fractions, get_overlap_momentum_interpolator, get_overlap_momentum_interpolator_flat, get_angle_averaged_diagonal_overlap_function"]}
{"id": "C86", "title": "Lists of states", "statement": "A flat index selects that state of a list, counted from the end when negative, and raises out of range; a tuple selects one position per axis of the list, taken periodically. Dual vectors are the conjugates, and taking the dual twice changes nothing. Iterating over a list and collecting the states again gives the same data over a plain list basis; states with data of one size are collected in order and get the basis of the first. A weighted state is the sum of the states with those weights, and converting it is summing the converted states; weights of another length raise. Averages over axes of the list are means over the states that agree on the other axes. The states of a basis are unit vectors and, on the grid, the basis functions. The states along some axes in increasing order are those of the list at the same positions; in any other order the data follow the order asked for while the basis keeps the order of the list.", "quantifier": "all list bases, all state bases, all data, all indices, axes and weights", "why_tests_cant": "The claim ranges over all shapes, indices and axes; a transposed result over a square list or symmetric data looks right.", "anchors": ["surface_potential_analysis/state_vector/state_vector_list.py: get_state_vector, get_weighted_state_vector, get_state_dual_vector, state_vector_list_into_iter, as_state_vector_list, average_state_vector, get_basis_states, get_state_along_axis", "surface_potential_analysis/state_vector/state_vector.py: as_vector, as_dual_vector", "surface_potential_analysis/state_vector/conversion.py: convert_state_vector_list_to_basis"]}
{"id": "C87", "title": "Inner products of states", "statement": "The matrix of inner products of two lists has as entry (i, j) the sum over the grid of the conjugate of the function of state i times the function of state j, whatever bases the states are given in; exchanging the lists gives the adjoint; the matrix of a list with itself is positive, its quadratic form being the norm of the weighted state. In one basis the entries are the inner products of the single states with the duals. The elementwise products are the diagonal. With eigenvalues the entries are multiplied by the conjugate of the first and by the second, but the states are not converted. The normalisation of a state is its inner product with its own dual, is not negative and is zero only for the zero state. Converting a state and a dual state to a complete basis keeps their inner product.", "quantifier": "all pairs of lists over all compatible orthonormal bases, truncated or not, all data and eigenvalues", "why_tests_cant": "The claim ranges over all pairs of bases and complex data; a conjugation on the wrong factor or a missing conversion is invisible for real states in one basis.", "anchors": ["surface_potential_analysis/state_vector/state_vector_list.py: calculate_inner_products, calculate_inner_products_elementwise, calculate_inner_products_eigenvalues", "surface_potential_analysis/state_vector/state_vector.py: calculate_normalization, calculate_inner_product", "surface_potential_analysis/state_vector/conversion.py: convert_state_vector_to_basis, convert_state_dual_vector_to_basis"]}
{"id": "C88", "title": "Seed states for localisation", "statement": "The state at a single point is the unit vector of that point, counted from the end when negative, and raises out of range. The states at single points for several bands raise when the square of the number of bands is below the number of basis states, put band i at point (i times the number of bands) otherwise, and are orthonormal only if that point lies among the basis states for every band. The states evenly occupied up to a threshold frequency are orthonormal; they raise for more states along an axis than the cell has points; when the number of states along every axis divides the number of points of the cell they are translations of one another by that fraction of the cell, and no state of the same norm and the same momenta is larger at any point than each of them at its centre. The states built from wavepackets have the mean occupation of the first wavepackets and norm one; for a fraction which is a point of the grid the state is the one with positive coefficients moved to that point, and is largest there.", "quantifier": "all lists of axes of one to any number of dimensions, all numbers of bands, all wavepackets, all fractions", "why_tests_cant": "The claim ranges over all shapes, bands and wavepackets, and one part is an extremum over all states of a space; a test checks one shape, where the number of bands and of points may happen to match.", "anchors": ["surface_potential_analysis/state_vector/util.py: get_single_point_state_vector_excact, get_single_point_state_vectors, get_most_localized_free_state_vectors, get_most_localized_state_vectors_from_probability", "surface_potential_analysis/wavepacket/wavepacket.py: get_wavepackets, get_fundamental_unfurled_basis"]}
{"id": "C89", "title": "Friction integrals of an adsorbate on a metal", "statement": "The occupation is that of Fermi and Dirac: between zero and one, a half at the Fermi wavenumber, falling with the energy, with as many electrons above the Fermi energy as holes below. The integrand is the occupation times the probability that a state with the additional energy is empty, it satisfies detailed balance, and is not a number where there is no such state. The integral over the occupations exists exactly when every electron in forty widths around the Fermi wavenumber has a final state; it is then positive, less than the length of the interval, grows with the energy, and is the Boltzmann factor times the integral of the reverse process. The potential differs from the screened potential of a proton by at most four parts in 10^32 of its strength at every momentum, including zero, is attractive, finite and even. The integral over the angle exists for every continuous overlap, is linear in it, is conjugate for the conjugate overlap, positive for a positive one, bounded for one between zero and one, and agrees with the documented integral divided by the square of hbar, taken at half of the change of wavevector. The rate is the product of the two.", "quantifier": "all positive constants, Fermi wavenumbers and temperatures, all energies and momenta, all continuous overlaps", "why_tests_cant": "The claims are about integrals over all electrons and angles for all overlap functions; a test evaluates a few with rounding, and cannot see a switch between two expressions at a point it does not sample.", "anchors": ["surface_potential_analysis/dynamics/hermitian_gamma_integral.py: get_hermitian_gamma_occupation_integrand, calculate_hermitian_gamma_occupation_integral, calculate_hermitian_gamma_potential_integral, calculate_real_gamma_integral"]}
{"id": "C90", "title": "Bases of times and of Bloch fractions", "statement": "An evenly spaced basis of times has one time per basis vector, spaced by the span divided by the number of times, a multiple of the fundamental spacing; up to whole spans they are the times of the fundamental states the vectors stand for. They lie in the span, without its end, exactly when the offset is at least zero and less than a step. The fundamental times include the end of the span and are therefore spaced more widely; the times are smaller than those of the same number by one part in the number of fundamental times. The span of an explicit basis of times is the spacing of its first two times. Evenly spaced Bloch fractions lie in the interval from minus one half to one half without its end, are evenly spaced up to whole numbers and are all different.", "quantifier": "all numbers of times, steps, offsets and spans", "why_tests_cant": "A test has a few sizes, steps and offsets, typically offset zero, where the wrapping of the samples and the different spacings cannot be seen.", "anchors": ["surface_potential_analysis/basis/time_basis_like.py: EvenlySpacedTimeBasis, FundamentalTimeBasis, ExplicitTimeBasis, BasisWithTimeLike.delta_t", "surface_potential_analysis/basis/block_fraction_basis.py: EvenlySpacedBlockFractionBasis.bloch_fractions, FundamentalBlockFractionBasis"]}
{"id": "C91", "title": "Localised stochastic Schrodinger solver", "statement": "The random choice among combinations of states has probabilities that are not negative and sum to one. The combinations are orthogonal, the squared norm of each is its probability times half the sum of the squared norms of the states; the sum of their projectors is half the sum of |psi><psi|, and the mean over the choices is its square divided by twice its trace. The choice fails exactly when all states vanish. For a state and itself times a phase, one choice is certain and is that state up to a phase. In every round the solver is asked for the state at once and after half the spacing of the times; the choice is among these two states of the second realisation, and the others are not used. Fewer than two realisations raise. Each trajectory starts at the initial state, the state stored for a time is the one after one more round than its number, and the solver succeeds when the states never both vanish.", "quantifier": "all lists of states in an orthonormal basis, all solvers and eigensolvers, all outcomes of the random choices, all numbers of trajectories, realisations and times", "why_tests_cant": "The outcome is random; a test sees a few random numbers and cannot check that the probabilities and the mean over all outcomes are right for every list of states.", "anchors": ["surface_potential_analysis/dynamics/stochastic_schrodinger/solve.py: _select_random_localized_state, solve_stochastic_schrodinger_equation_localized"]}
{"id": "C92", "title": "Averages over pairs of times of trajectories", "statement": "For every set of trajectories and every lag d, the average displacement is the mean of (x_(i+d) - x_i)^2 over all pairs of times with that lag (a mean square, though documented as a root mean square), and the average intermediate scattering function is the mean of exp(-i k (x_(i+d) - x_i)) over the same pairs (the conjugate of the formula in the comment). The first is zero at lag zero, never negative, unchanged when the trajectory is shifted and quadratic for uniform motion; the second is one at lag zero, at most one in size, conjugated when k is reversed, unchanged by shifts, a pure phase for uniform motion, and differs from one in its real part by at most k^2/2 times the first. The lags of the results are the differences of the given times. The normalised average drift is minus the mean displacement divided by the mean of 1/k; the average normalised drift is a difference of sums of which only one is divided by the number of times, and gives a particle at rest a drift that depends on the origin.", "quantifier": "all numbers of trajectories and times, all positions, wavenumbers and lags", "why_tests_cant": "The code replaces sums over pairs by cumulative sums and a correlation; a test compares a few trajectories, and symmetric or short ones hide wrong offsets, signs and counts.", "anchors": ["surface_potential_analysis/state_vector/plot.py: _calculate_total_offsset_multiplications_real, _calculate_total_offsset_multiplications_complex, get_average_displacements, get_average_isf, get_average_normalized_drift, get_normalized_average_drift"]}
{"id": "C93", "title": "Average and restored positions of states on a periodic grid", "statement": "For every list of states in a stacked basis, the periodic position of a state is the mean of exp(2 pi i sum_a d_a x_a / n_a) over its probabilities at the points of the fundamental grid; it is at most the squared norm, a direction with another number of entries raises, and moving the probabilities along the grid turns it by the phase of the shift. In one dimension the average position lies in the cell, has the phase of the periodic position, is the point itself for a state at one point, and moves with the state round the cell. In more dimensions the call works only for one state or as many states as dimensions, and in the second case the answer mixes states and components. The restored positions have the phases of the states, start within half a cell of the origin, never step by more than half a cell, and follow every path of the states with steps below half a cell exactly, up to a whole number of cells.", "quantifier": "all stacked bases (with orthonormal explicit vectors), lattice vectors, directions, lists of states, shifts and paths", "why_tests_cant": "Averages over a circle go wrong for states across the boundary, angles at the branch cut, grids with several dimensions and steps near half a cell; a test visits few of these.", "anchors": ["surface_potential_analysis/state_vector/plot.py: get_periodic_x_operator, _get_periodic_x, _get_average_x_periodic, _get_restored_x", "surface_potential_analysis/state_vector/eigenstate_calculation.py: calculate_expectation_list", "surface_potential_analysis/operator/conversion.py: convert_diagonal_operator_to_basis"]}
{"id": "C94", "title": "Mean positions and momenta, spreads and coherent coordinates", "statement": "For every list of states on a grid with one dimension, the mean position is the sum of the probabilities times the positions and the mean momentum is the sum of the probabilities of the momenta times the signed momenta; both probabilities add up to the squared norm and a plane-wave factor moves the momenta. A real wavefunction has no mean momentum for an odd number of points, but for an even one has minus the weight of the highest frequency. In more than one dimension the operators raise (unless there happen to be as many points as dimensions). The spread divides the states it is given by their norms, in place; it is the width of the Gaussian with the same periodic position, infinite if that vanishes, and zero exactly for states at one place along the axis. The coherent coordinates are the periodic position, mean momentum and spread of the normalised states, and do not depend on their norms and phases.", "quantifier": "all bases with one axis (spreads: any number of axes), lattice vectors, and lists of states", "why_tests_cant": "The values must be right for every wavefunction in every basis; odd and even grids, the highest frequency, unnormalised and vanishing states behave differently.", "anchors": ["surface_potential_analysis/state_vector/plot.py: _get_x_operator, _get_average_x, _get_k_operator, _get_average_k, _get_x_spread, get_coherent_coordinates", "surface_potential_analysis/state_vector/eigenstate_calculation.py: calculate_expectation_list"]}
{"id": "C95", "title": "Points projected along axes and the coordinates of slices", "statement": "For every lattice and list of axes, points (or momenta) projected along the axes have one entry per axis; the projection is defined exactly if every axis is in range and no vector is a combination of the vectors of earlier axes. Projected points are never longer than the points, inner products with points in the plane of the axes are kept, and the vector of an axis has a positive entry for its axis and none for later ones. The coordinates of a slice through a grid are the projections of its points, so distances within a slice are the distances of the points; in a basis with fewer states than points the rows are not the axes. The index of the maximum selects a slice that contains the first of the largest entries.", "quantifier": "all lattice vectors in any number of dimensions, lists of axes, points, grids, slices and data", "why_tests_cant": "Orthogonalisation must work for every skew lattice and order of the axes, and slices for every shape and index.", "anchors": ["surface_potential_analysis/stacked_basis/util.py: project_x_points_along_axes, project_k_points_along_axes, get_fundamental_stacked_x_points_projected_along_axes, get_x_coordinates_in_axes, get_max_idx", "surface_potential_analysis/basis/util.py: BasisUtil.fundamental_x_points_stacked"]}
{"id": "C96", "title": "Cumulative lengths of paths", "statement": "For every path of indices the cumulative lengths are the sums of the distances between consecutive points on the lattice, one entry per point (one for an empty path), and never less than the straight distance. With wrapping, every step is replaced by its image within half a repeat along each axis: moving the points by whole repeats changes nothing, steps below half a repeat are unchanged, and on a lattice with orthogonal vectors no image is shorter. The lengths in momentum space do not have one entry per point: there is always one more than there are axes.", "quantifier": "all lattices, grids, paths and numbers of points", "why_tests_cant": "Paths may be empty, cross the boundary any number of times or have steps of exactly half a repeat; the claims hold for every path.", "anchors": ["surface_potential_analysis/stacked_basis/util.py: calculate_distances_along_path, calculate_cumulative_x_distances_along_path, calculate_cumulative_k_distances_along_path, _wrap_distance", "surface_potential_analysis/util/util.py: calculate_cumulative_distances_along_path"]}
{"id": "C97", "title": "Periodic averages of pairs of points", "statement": "For every pair of points of a grid with up to ten million points along an axis, twice the periodic average is the sum of the points, or the sum plus one period if they are more than half way round apart, modulo two periods: the middle of the shorter way round, from either point. The documented examples (1 and N - 1 give zero; N / 2 and N / 2 give N / 2) are not all met.", "quantifier": "all grids, axes and pairs of points", "why_tests_cant": "The average goes through angles, a tolerance for opposite points, and rounding; it must be right for every pair and every size.", "anchors": ["surface_potential_analysis/basis/util.py: get_twice_average_nx, _get_average_angles"]}
{"id": "C98", "title": "BlochBasis converts through the Bloch waves", "statement": "For every list of Bloch wavefunctions (bands, samples, unit cell): converting coefficients of BlochBasis into points gives the superposition of the Bloch waves with those coefficients, converting from points gives the inner products with the Bloch waves, and both agree with the explicit basis of all Bloch states for every size, not only the small sizes at which the methods compare. If the bands are orthonormal at every sample the conversion and its inverse undo each other, in the other order too when there are as many bands as states of the cell. If the state basis has fewer states than its fundamental grid has points the conversion into points always raises. The states at a tuple of integers are those at the sample congruent to it.", "quantifier": "all numbers of bands and samples, state bases, dimensions, wavefunctions, vectors and indices", "why_tests_cant": "The methods replace a matrix product by shifts, transpositions and conversions and switch off their own check above 9000 elements; agreement must hold for every shape, even and odd.", "anchors": ["surface_potential_analysis/wavepacket/get_eigenstate.py: BlochBasis.__into_fundamental__, BlochBasis.__from_fundamental__, BlochBasis.vectors_at_bloch_k, get_bloch_basis, get_bloch_states", "surface_potential_analysis/wavepacket/wavepacket.py: get_fundamental_unfurled_basis"]}
{"id": "C99", "title": "Bloch states keep their eigenvalues, and energies in the Bloch basis", "statement": "get_all_wavepacket_states returns one state per sample, in sample order, equal to get_wavepacket_state_vector at that sample, i.e. the Bloch wave of the sample. The expectation of get_full_bloch_hamiltonian in any state of the supercell is the sum of the eigenvalues weighted by the squared components along the Bloch waves; it is the eigenvalue of a Bloch wave for that wave, and lies between the smallest and largest eigenvalue for every normalised state when the bands are complete. get_average_eigenvalues is the mean over samples of every band. get_wavepackets_with_eigenvalues selects, for every start, stop and step, the same bands from states and eigenvalues, in Python's order; get_wavepacket_at_band selects one of each. get_all_eigenstates, and with it all three forms of localize_position_operator, raises for every wavepacket whose cell has more than one point.", "quantifier": "all samples, state bases, dimensions, data, eigenvalues, states, slices (any start, stop, step) and band indices", "why_tests_cant": "Which eigenvalue belongs to which state depends on flattening orders that agree by accident for symmetric shapes; the statements range over all shapes, states and slices, and the raising functions raise for every wavepacket, not for one example.", "anchors": ["surface_potential_analysis/wavepacket/get_eigenstate.py: get_all_wavepacket_states, get_all_eigenstates, get_full_bloch_hamiltonian, get_bloch_hamiltonian, get_bloch_basis", "surface_potential_analysis/wavepacket/wavepacket.py: get_average_eigenvalues, get_wavepackets_with_eigenvalues, get_wavepacket_at_band, get_fundamental_sample_basis", "surface_potential_analysis/wavepacket/localization/_operator.py: localize_position_operator, _localize_operator, localize_position_operator_many_band, localize_position_operator_many_band_individual, _get_position_operator, _get_operator_between_states", "surface_potential_analysis/state_vector/eigenstate_calculation.py: calculate_expectation_diagonal", "surface_potential_analysis/state_vector/eigenstate_list.py: get_eigenvalues_list"]}
{"id": "C100", "title": "The states of the tight binding approximation", "statement": "get_tight_binding_state returns, for wavepackets with one or two axes and every origin (tuple, flat index or the default), the Bloch wave of the requested sample restricted to the unit cell centred at the origin and zero elsewhere, provided the number of samples is at least the number of points along the first axis; the cell then has every point exactly once and the squared norm is that of the sample divided by the number of samples, so the state is not normalised. The default origin is a point near zero at which the modulus of the wave is largest. With fewer samples the points whose position along the first axis is at least the number of samples are lost, for every origin. With three or more axes the function raises. get_tight_binding_states returns one such state per band.", "quantifier": "all numbers of samples, state bases with as many states as points, data, samples, origins and bands", "why_tests_cant": "The index arrays belong to the pair (list, state) rather than to the axes of the state, which goes unnoticed whenever there are enough samples; the statement covers all shapes, and the loss of points depends on how the two numbers compare.", "anchors": ["surface_potential_analysis/wavepacket/get_eigenstate.py: get_tight_binding_state, get_tight_binding_states", "surface_potential_analysis/stacked_basis/util.py: wrap_index_around_origin", "surface_potential_analysis/basis/util.py: BasisUtil.fundamental_stacked_nx_points, BasisUtil.get_flat_index"]}
{"id": "C101", "title": "Localisation by projections onto states of the supercell", "statement": "Localisation by projections makes, at every sample, the matrix of overlaps of the localised Bloch waves with the projections (as functions on the points of the supercell) hermitian and positive semidefinite. For a single band it only multiplies every sample by a phase, after which the overlap with the projection is the modulus of what it was. localize_single_point_projection makes the Bloch waves of all samples real and not negative at a point where the requested one is largest, so that no other phases give their sum a larger value there; localize_tight_binding_projection leaves the first sample as it is unless its cut wave is zero, and raises for three axes. The exponential states raise for every wavepacket. get_gaussian_states raises unless there are two axes; then it is a normalised gaussian of the nearest image of each point, with the numbers of samples and of states as widths and the origin taken modulo these, hence not always centred where asked. get_evenly_spaced_points returns the points at the fractions i/shape rounded down, orthonormal exactly when the shape does not exceed the grid along any axis, and raises for the wrong number of axes.", "quantifier": "all list and state bases, data, projections in any basis of the supercell, origins and shapes, and every function with the properties of the singular value decomposition", "why_tests_cant": "The overlaps hold for every projection, wavepacket and decomposition; that a function raises for every input, or that a point is repeated for every shape that is too large, is beyond examples.", "anchors": ["surface_potential_analysis/wavepacket/localization/_projection.py: localize_wavepacket_projection, localize_single_band_wavepacket_projection, localize_tight_binding_projection, get_single_point_state_for_wavepacket, localize_single_point_projection, get_exponential_state, localize_exponential_decay_projection, get_gaussian_states, localize_wavepacket_gaussian_projection, get_evenly_spaced_points", "surface_potential_analysis/state_vector/util.py: get_single_point_state_vector_excact"]}
{"id": "C102", "title": "Localisation about a largest value of a wavepacket", "statement": "get_wavepacket_two_points returns, for two or three axes and as many states as points along each, a point where the Bloch wave of the first sample is largest and its mirror image, both in the cell around the given offset; with fewer states than points it wraps by the number of states, and the wave may vanish at both points. localize_tightly_bound_wavepacket_two_point_max multiplies, on data with a row for each sample, every sample by a phase, after which its wave has at the two points phases equally far on either side of the angle, by at most an eighth of a turn, up to a sign at the second; on flat data it returns the data once for every sample, which is no wavepacket. Any other number of axes raises, and localize_tightly_bound_wavepacket_max_point raises on every input.", "quantifier": "all list and state bases, data, offsets and angles", "why_tests_cant": "The phases hold for every wavepacket, sample and angle, and that a function raises on every input cannot be tested.", "anchors": ["surface_potential_analysis/wavepacket/localization/_tight_binding.py: get_wavepacket_two_points, _wrap_phases, localize_tightly_bound_wavepacket_two_point_max, localize_tightly_bound_wavepacket_max_point"]}
{"id": "C103", "title": "Position and momentum forms of a state vector and its interpolation", "statement": "Converted to the position basis the data of a state vector are its values at the points, converted to the momentum basis its inner products with the plane waves, and the dual conversions do the same for the functional. interpolate_state_vector_momentum gives every axis named as many points as the second entry of the shape, whichever axis it is, and returns the trigonometric interpolant of the state times the root of the number of points asked for over the number obtained; at the points of the old grid that is the old value times this root. It raises exactly when an axis is named and the shape has no second entry or one smaller than the axis, so always on a single axis.", "quantifier": "all stacked bases, data, shapes and axes", "why_tests_cant": "The interpolant holds at every point for every state and shape, and tests with equal sizes in all axes do not show which entry of the shape is used.", "anchors": ["surface_potential_analysis/state_vector/conversion.py: convert_state_vector_to_position_basis, convert_state_vector_to_momentum_basis, convert_state_dual_vector_to_position_basis, convert_state_dual_vector_to_momentum_basis, interpolate_state_vector_momentum"]}
{"id": "C104", "title": "Bases of eigenstates, matrix elements and operators applied to lists of states", "statement": "get_eigenstate_basis_from_hamiltonian of a Hermitian operator and a range of state numbers gives an orthonormal basis of these eigenstates in ascending order, in which the operator is the diagonal of their eigenvalues; it raises exactly when the range is empty or outside the states. A vector taken to such a basis and back is projected on its states, and unchanged when all are kept. The stacked class reports the shape of the underlying basis, whose product is the number of states only when all are kept. calculate_operator_inner_product gives the same value after converting both states and the operator to any complete bases. apply_operator_to_states returns for every state the normalised image and its norm. An operator, Hermitian or not, is rebuilt from calculate_eigenvectors when the eigenvectors can be inverted. An operator that is not square raises.", "quantifier": "all operators, bases, ranges of states, vectors and lists of states", "why_tests_cant": "The diagonal form and independence of the basis hold for every operator and basis; tests check single ones numerically.", "anchors": ["surface_potential_analysis/state_vector/eigenstate_calculation.py: get_eigenstate_basis_from_hamiltonian, get_eigenstate_basis_stacked_from_hamiltonian, calculate_eigenvectors_hermitian, calculate_eigenvectors, calculate_operator_inner_product", "surface_potential_analysis/stacked_basis/potential_basis.py: get_potential_basis_config_basis", "surface_potential_analysis/basis/explicit_basis.py: ExplicitStackedBasisWithLength, from_state_vectors", "surface_potential_analysis/operator/operations.py: apply_operator_to_states"]}
{"id": "C105", "title": "Spline interpolation along an axis, uneven potentials and the lowest column of a potential", "statement": "interpolate_points_along_axis_spline along the last axis returns, on points evenly spaced from the first to the last coordinate, the spline through every column. Along another axis it does so exactly when the array it writes to is a view of the one it returns: when the axes between it and the last one are trivial and so are those before it or the new axis (for a last axis of length one, when one of the three is trivial); otherwise it returns uninitialised memory, for example along the first of three axes. interpolate_uneven_potential resamples every plane and follows the spline of every column; it keeps the old values at shared points, in particular in the first and last plane, when the plane does not shrink and its second axis is odd or keeps its length. The basis it returns spaces the planes by 1/n of the height although their values are taken at spacings of 1/(n-1). mock_even_potential keeps all values over a height of one. select_minimum_potential_3d returns a column containing a smallest value.", "quantifier": "all shapes, values, coordinates, new lengths, axes and splines through their points", "why_tests_cant": "Whether a reshape is a view depends on every length; the content of uninitialised memory differs between runs and may look right after a previous call.", "anchors": ["surface_potential_analysis/util/interpolation.py: interpolate_points_along_axis_spline", "surface_potential_analysis/potential/potential.py: interpolate_uneven_potential, mock_even_potential, UnevenPotential3dZBasis", "surface_potential_analysis/stacked_basis/potential_basis.py: select_minimum_potential_3d"]}
{"id": "C106", "title": "Probabilities, scattering functions and rate decompositions of tunnelling simulations", "statement": "The probabilities taken from a tunnelling simulation that starts from a distribution over the states form, at every time, a distribution over the states, equal to the simulated state and to the given one at time zero. calculate_isf_at_times raises for every density matrix, because density_matrix_as_probability keeps the pair of bases; with the same probabilities in the basis of the states the scattering function would be defined, bounded by one and equal to one without momentum transfer. Both averages over the equilibrium raise before their first band; a jump matrix cannot be recovered from any operator, so resample_tunnelling_a_matrix always raises. get_rate_decomposition returns eigenvectors in the field called eigenvalues; with their eigenvalues, which are not returned, its coefficients rebuild the initial state and the simulation at every time.", "quantifier": "all jump matrices, bases of bands, initial states, times, momenta and solvers", "why_tests_cant": "Distributions must remain so at every time for every rate matrix; a function that raises for every input cannot be told by one that raises in a test.", "anchors": ["surface_potential_analysis/dynamics/incoherent_propagation/eigenstates.py: get_equilibrium_state, calculate_tunnelling_simulation_state", "surface_potential_analysis/dynamics/incoherent_propagation/isf.py: calculate_isf_at_times, calculate_equilibrium_state_averaged_isf, calculate_equilibrium_initial_state_isf, get_rate_decomposition", "surface_potential_analysis/dynamics/incoherent_propagation/tunnelling_matrix.py: get_jump_matrix_from_a_matrix, resample_tunnelling_a_matrix, density_matrix_as_probability, density_matrix_list_as_probabilities"]}
{"id": "C107", "title": "Fits of scattering functions to decays and to the Fey model", "statement": "For every curve_fit that respects bounds: the double exponential fit is one at time zero, decreases towards its baseline and is no further from the data than the start; its labels fast and slow are not determined. Rates extracted at a positive root of the Fey equations have exactly the decays of the fit and a scattering function with these decays; positive roots exist exactly when the fitted rates are far enough apart, and then come in pairs that exchange the extracted rates. The four variable model has the non-negative decay rates of the Fey model and contains the Fey model. The curves of these fits are no further from the data in the window than the curve of the start. Fitted rates and amplitudes are never negative, offsets lie between 0 and 1/5, the fixed ratio and spacing are kept, and a negative ratio raises. The fits depend only on values strictly inside the window (never on the last one when no end is given) and ignore error bars.", "quantifier": "all data, measures, windows, ratios, spacings, curve_fit results within the bounds and fsolve results", "why_tests_cant": "The optimiser is outside of the package: the claims hold for every result it may return, and for every data.", "anchors": ["surface_potential_analysis/dynamics/isf.py: fit_isf_to_double_exponential, get_isf_from_4_variable_fit, extract_fey_rate_from_4_variables_fit_112bar, calculate_isf_fey_4_variable_model_110, fit_isf_to_fey_4_variable_model_110, fit_isf_to_fey_4_variable_model_110_fixed_ratio, fit_isf_to_fey_model_110, fit_isf_to_fey_model_112bar", "surface_potential_analysis/util/util.py: get_measured_data"]}
{"id": "C108", "title": "What the stochastic Schrodinger solvers are asked to integrate", "statement": "solve_stochastic_schrodinger_equation_rust_banded, for a Hamiltonian and collapse operators in any bases of one space, at least one operator not zero, hands over rescaled operators and a rescaled step whose Euler steps are, with threshold zero, exactly those of the physical equation with the fundamental time step, for every state and noise; with a threshold no scaled element changes by more than the threshold allows; the outputs lie at the requested times. Without collapse operators (the default), or with operators that all vanish, it raises. solve_stochastic_schrodinger_equation_rust hands over the physical operators, but its step is the spacing of the times and it makes step of them between outputs: it follows the requested times exactly when the step of the time basis is one. solve_stochastic_schrodinger_equation divides collapse operators by hbar instead of its square root: every jump rate is wrong by 1 / hbar. get_collapse_operators_from_function raises for every simulation of more than one state.", "quantifier": "all Hamiltonians, collapse operators, bases, time bases, thresholds, hbar, states and noises", "why_tests_cant": "Whether a rescaled problem is the same stochastic equation is a statement about every state and every noise; a trajectory in a test is random.", "anchors": ["surface_potential_analysis/dynamics/stochastic_schrodinger/solve.py: solve_stochastic_schrodinger_equation, solve_stochastic_schrodinger_equation_rust, solve_stochastic_schrodinger_equation_rust_banded, get_collapse_operators_from_function, get_banded_operator"]}
{"id": "C109", "title": "The basis and the Hamiltonian of Wannier states", "statement": "For orthonormal wavepackets in a full basis and an operator of localisation with orthonormal rows, get_wannier_basis exists; coefficients in it are the inner products with the Wannier states, states are recovered as their sums, coefficients survive a round trip through positions, and so do positions if there are as many bands as states of a unit cell. get_wannier_hamiltonian has, at every sample, the columns of the operator as eigenvectors and the energies of the bands as eigenvalues; get_full_wannier_hamiltonian is its Fourier transform, only depends on the distance of cells around the supercell, and its inverse transform gives the Hamiltonian at the samples back. diagonal_localization_operator_as_full followed by localization_operator_as_diagonal is the identity, the other way round keeps exactly the diagonal, and both forms localise wavepackets to the same states. get_localization_operator_tight_binding_projections is unitary at every sample in one and two dimensions.", "quantifier": "all numbers of cells, unit cell bases, bands, wavepackets, operators of localisation, energies and decompositions by scipy", "why_tests_cant": "Orthonormality, completeness and translation symmetry of the states are statements about every pair of cells and bands for every set of wavepackets.", "anchors": ["surface_potential_analysis/wavepacket/get_eigenstate.py: get_wannier_basis, get_wannier_hamiltonian, get_bloch_hamiltonian, get_full_wannier_hamiltonian", "surface_potential_analysis/wavepacket/localization_operator.py: localization_operator_as_diagonal, diagonal_localization_operator_as_full", "surface_potential_analysis/wavepacket/localization/_projection.py: get_localization_operator_tight_binding_projections"]}
{"id": "C110", "title": "Bases with lattice vectors and their waves", "statement": "stacked_basis_as_fundamental_position_basis and stacked_basis_as_fundamental_momentum_basis keep lattice vectors and fundamental shape and are idempotent; they raise only for lattice vectors of different dimensions. On every lattice, skew or not, states in any basis convert to both; the position form holds the values of the state, the momentum form its projections on exp(i k.x) / sqrt(N) with the wave vectors and points of BasisUtil, and the values are the sum of these waves. position_basis_from_shape has the given vectors and shape or raises if their numbers differ; by default its points are fractions of a unit cell. position_basis_3d_from_parent has the lattice of the parent, but states of the parent convert to it only if the resolution is the fundamental shape of the parent. stacked_basis_as_fundamental_with_shape, basis_as_n_point_basis and basis_as_single_point_basis raise for every axis. The form of one axis holds the values of a state or its projections on plane waves, and the forms of a stacked basis are those of its axes.", "quantifier": "all numbers of axes, lattices, bases of the axes, shapes, resolutions and states", "why_tests_cant": "That waves and points fit together holds for every lattice; on the orthogonal lattices of tests a transposed inverse is invisible.", "anchors": ["surface_potential_analysis/basis/conversion.py: basis_as_fundamental_position_basis, basis_as_fundamental_momentum_basis, basis_as_n_point_basis, basis_as_single_point_basis", "surface_potential_analysis/stacked_basis/conversion.py: stacked_basis_as_fundamental_position_basis, stacked_basis_as_fundamental_momentum_basis, stacked_basis_as_fundamental_with_shape", "surface_potential_analysis/stacked_basis/build.py: position_basis_from_shape, position_basis_3d_from_parent, momentum_basis_3d_from_resolution", "surface_potential_analysis/stacked_basis/util.py: get_single_point_basis", "surface_potential_analysis/basis/util.py: BasisUtil.fundamental_stacked_k_points, BasisUtil.fundamental_x_points_stacked", "surface_potential_analysis/basis/conversion.py: basis_as_fundamental_basis"]}
{"id": "C111", "title": "Conversions of probability vectors", "statement": "On a basis whose states are points of the grid (fundamental, truncated or evenly spaced positions on every axis), convert_probability_vector_to_position_basis returns non-negative entries with the same total. On every other basis the numbers are converted as amplitudes: the position form holds the values of the superposition with these coefficients and its total is sqrt(N) times the zero-momentum entry of the momentum form; from momentum bases the total becomes sqrt(N) times the first probability, so totals and signs are not kept. convert_probability_vector_list_to_basis converts row by row and raises unless the size fits. get_probability_along_axis returns the list itself for a list along one axis, the whole list in another shape under a smaller basis for one of two axes, and raises for three or more axes, for two or more requested axes and whenever one index per remaining axis is given.", "quantifier": "all numbers of axes, lattices, bases of the axes, probabilities, lists, axes and indices", "why_tests_cant": "Whether the total is kept depends on the kind of every axis; tests use one-axis position bases, for which everything holds.", "anchors": ["surface_potential_analysis/probability_vector/conversion.py: convert_probability_vector_to_basis, convert_probability_vector_list_to_basis, convert_probability_vector_to_position_basis, convert_probability_vector_to_momentum_basis", "surface_potential_analysis/probability_vector/probability_vector.py: get_probability_along_axis", "surface_potential_analysis/util/util.py: get_data_in_axes"]}
{"id": "C112", "title": "Collections of wavepackets with eigenvalues, and the bases of their samples", "statement": "convert_wavepacket_with_eigenvalues_to_basis converts the sample axis and the state axis of every band with the overlaps of the basis states and raises exactly if bases or sizes do not fit. If the new sample basis is left out or picks samples of the old one, every state keeps its values on the grid and its eigenvalue; for other sample bases the eigenvalues are converted like amplitudes and are no eigenvalues any more. convert_wavepacket_to_position_basis and convert_potential_to_position_basis hold the values at the grid points. The wave vector get_wavepacket_fundamental_sample_frequencies gives for a sample advances the phase by the signed fraction of the sample along every lattice vector, on any lattice. All states of get_fundamental_unfurled_sample_basis_momentum obey Bloch's theorem on the supercell with the given offsets as crystal momentum; with too few offsets the basis has fewer axes, with too many it raises.", "quantifier": "all numbers of axes, bands and samples, lattices, bases, states, offsets and translations", "why_tests_cant": "Bloch's theorem is a statement about every state, sample and translation; on square lattices with one axis sign and transposition errors cancel.", "anchors": ["surface_potential_analysis/wavepacket/conversion.py: convert_wavepacket_with_eigenvalues_to_basis, convert_wavepacket_to_position_basis", "surface_potential_analysis/potential/conversion.py: convert_potential_to_position_basis", "surface_potential_analysis/wavepacket/wavepacket.py: get_fundamental_unfurled_sample_basis_momentum, get_fundamental_sample_basis, get_wavepacket_fundamental_sample_frequencies"]}
{"id": "C113", "title": "Localisation of wavepackets with Wannier90: the input files and what is done with the result", "statement": "For a wavepacket list on a lattice with one to three vectors, the .win file written for Wannier90 gives the cell, the grid and the samples such that, for the vectors reciprocal to the cell of the file, the wave vector listed for each sample is the one its states actually have: the states of the sample are Bloch waves with that wave vector on the supercell. For sample bases holding all momenta the samples are exactly the points of the grid the file announces, each once; a truncated sample basis is written without complaint although its samples are not on the grid. The overlaps and the projections in the other files are those of the given states, and the file of projections exists exactly if the .win file says so. Given the neighbours and the matrices Wannier90 returns, the operator holds these matrices and localize_wavepacket_wannier90 combines the bands with them; if the number of projections is not the number of bands it fails after Wannier90 has run, and symmetry operations always fail. Localised one at a time, every band is multiplied by its own phases only. Writing the cell raises exactly for more than three vectors or vectors with a number of components that cannot be broadcast; vectors with one component are broadcast into a cell with no volume.", "quantifier": "all lattices, numbers of bands and samples, sample and state bases, projections, ignored axes, and all texts Wannier90 may return", "why_tests_cant": "Wannier90 is not available in tests, and a wrong transposition of the cell, order of samples or sign of a phase still gives files it accepts; only the relation between file and states, for every lattice, shows they describe the given states.", "anchors": ["surface_potential_analysis/wavepacket/localization/_wannier90.py: Wannier90Options, _build_real_lattice_block, _build_k_points_block, _build_win_file, _write_setup_files_wannier90, _write_localization_files_wannier90, get_localization_operator_wannier90, localize_wavepacket_wannier90, get_localization_operator_wannier90_individual_bands"]}
{"id": "C114", "title": "Noise operators built for a Hamiltonian, and detailed balance", "statement": "get_temperature_corrected_gaussian_noise_operators returns, in the basis of the Hamiltonian H (any stacked basis with orthonormal states, also truncated) and with unchanged eigenvalues, the operators M - [H, M]/(4kT) of the gaussian noise operators M, whatever the truncation. On a lattice along the coordinates and without truncation, the rate sum_a lambda_a |<u|L_a|v>|^2 from an eigenstate v of energy E' to an eigenstate u of energy E is (1 - (E-E')/(4kT))^2 times the rate of the noise with correlation a^2 exp(-d^2/(2 lambda^2)) at periodic distance d. Hence both directions share a real factor w, and for 0 <= E-E' <= 4kT detailed balance holds up to |w| ((E-E')/kT)^3/8, with the upward rate never above the Boltzmann factor times the downward one. It does not hold exactly: between states 4kT apart there is no transition up at all, though there is one down. The effective noise of friction eta does the same with correlation (2 eta kT/hbar^2)(L^2/8) exp(-4 d^2/L^2), where L is the length of the shortest lattice vector.", "quantifier": "all Hermitian Hamiltonians, stacked bases, aligned lattices, amplitudes, lengths, temperatures, pairs of eigenstates and truncations", "why_tests_cant": "Detailed balance is a relation between rates for every pair of eigenstates of every Hamiltonian; a run at one temperature shows only that the result looks thermal, and the sign of the commutator or a factor in 4kT changes the order of the error alone.", "anchors": ["surface_potential_analysis/kernel/gaussian.py: get_temperature_corrected_gaussian_noise_operators, get_temperature_corrected_effective_gaussian_noise_operators", "surface_potential_analysis/kernel/kernel.py: get_temperature_corrected_diagonal_noise_operators"]}
{"id": "C115", "title": "Locations of bands taken from wavepackets", "statement": "TunnellingSimulationBandsBasis.from_wavepackets of wavepackets on two or three axes with as many states as grid points gives one band per wavepacket, whose location is the middle of two points of the cell around the origin: a point where the wave of the first sample is largest in modulus among all points, and its mirror image. If the first two axes have equally many points, both components of every location are equal. The location is in numbers of grid points, while the simulation reads it as a fraction of the cell vectors: a state of band k in cell (i, j) is placed at (i + N0 f0) a0 + (j + N1 f1) a1, with f0, f1 the fractions of the middle point and N0, N1 the numbers of points. A state that is non-zero at a quarter of both vectors only is thus placed at the opposite corner of the cell. On a single axis the function raises.", "quantifier": "all collections of wavepackets of the given kind, lattices, bands and cells", "why_tests_cant": "The mix-up of units disappears on a grid of one point and for states at the origin, which is where localised test states sit; that the location is at a largest value concerns every point of every wave.", "anchors": ["surface_potential_analysis/dynamics/tunnelling_basis.py: TunnellingSimulationBandsBasis.from_wavepackets", "surface_potential_analysis/dynamics/isf.py: _get_location_offsets_per_band"]}
{"id": "C116", "title": "Sites of (111) and (100) surfaces", "statement": "get_111_comparison_points_x2 names, on a lattice with vectors of equal length at sixty degrees and a multiple of three points along both axes, three different sites FCC, HCP and top, which are exactly the grid points that a rotation by a third of a turn about FCC maps to themselves up to lattice vectors. With multiples of six the bridge site is in the middle of FCC and HCP and of two top sites one lattice vector apart. With another number of points HCP and top are off by a fraction of a grid point and are not symmetric. get_100_comparison_points_x2 names, on a square lattice with even numbers of points, the hollow and top sites, exactly the grid points that a quarter turn about hollow keeps, and the bridge, one of the two further ones that half a turn keeps, in the middle of two neighbouring hollow sites.", "quantifier": "all lattice constants, numbers of points, offsets and grid points", "why_tests_cant": "That these are all the symmetric sites is a statement about every grid point of every grid; a test compares the dictionary with itself.", "anchors": ["surface_potential_analysis/potential/_comparison_points.py: get_111_comparison_points_x2, get_100_comparison_points_x2", "surface_potential_analysis/potential/plot.py: plot_potential_1d_x2_comparison_111, plot_potential_1d_x2_comparison_100"]}
{"id": "C117", "title": "What plotted lines and meshes show", "statement": "plot_data_1d_x, plot_data_1d_k and plot_data_1d_n draw, along one axis through a given index on the others, one point per grid point: at its place along the lattice vector, the reciprocal vector or its number, with the real part, imaginary part, modulus or phase of the state there (in momentum: of the share of the wave, momenta in ascending order). Points are evenly spaced and one more point repeats the value of the first, a period later. plot_data_2d_x and plot_data_2d_k draw every point of the slice with distances between points kept, the first axis horizontal and the second upwards, and colour limits that just hold the values. Phases of neighbours on a line differ by at most pi, but not at the repeated point: the phase of a wave of one turn falls back there. Without an index the slice goes through a point of largest modulus, except for plot_data_1d_k, which takes the place of the largest entry of the data as given: it can draw zero for a state that is not. Axes of one point and indices out of range or of the wrong length raise.", "quantifier": "all bases of any number of axes, lattices, states, axes, indices and measures", "why_tests_cant": "Plots are looked at, not compared; that positions, order of momenta and values belong together is a statement about every point of every slice, and data given in position or in momentum only differ when neither is concentrated at zero.", "anchors": ["surface_potential_analysis/util/plot.py: plot_data_1d_n, plot_data_1d_x, plot_data_1d_k, plot_data_2d_x, plot_data_2d_k", "surface_potential_analysis/util/util.py: get_measured_data", "surface_potential_analysis/stacked_basis/util.py: get_x_coordinates_in_axes, get_k_coordinates_in_axes, get_max_idx"]}
{"id": "C118", "title": "Effective masses of bands", "statement": "get_wavepacket_transformed_energy_effective_mass gives for band b along an axis hbar^2 (2b + 1) / (d^2 |E_b|): d is the length of the lattice vector, E_b the Fourier component of the energies of the band for a step to the next cell; the mass is infinite exactly if this component is zero, and an axis of one sample raises. Every band of a free particle of mass m gets the mass m up to sampling: m (sin(pi/n)/(pi/n))^2 for an even number n of samples, and between m (1 - (pi/n)^2/3) and m / cos(pi/n) for every n. It is not the mass by curvature: with hopping between neighbouring cells it is 2 (2b + 1) times that mass. An axis counted from the end uses the mean energy instead. get_wavepacket_localized_effective_mass is, for one band and an operator of unit modulus, the square root of the number of samples times this mass; for two bands at two samples and the identity as operator every mass is infinite whatever the energies.", "quantifier": "all numbers of bands, shapes of samples, lattices, energies and axes; all masses and numbers of samples of a free particle", "why_tests_cant": "That all bands of a free particle get its mass is an identity over every band and every number of samples, with a limit; examples with one number of samples cannot tell a wrong normalisation from coarse sampling.", "anchors": ["surface_potential_analysis/wavepacket/plot.py: _get_free_energy, get_wavepacket_transformed_energy_effective_mass, get_wavepacket_localized_effective_mass"]}
{"id": "C119", "title": "Lines of lists of values", "statement": "plot_value_list_against_time, against_nx and plot_all_value_list_against_time draw each value at its time or index, with the chosen measure. plot_value_list_against_frequency draws, at the frequencies (i - n/2)/span in ascending order, the Fourier sum of the values over their times, multiplied by a phase of a delay offset * dt * (1 - 1/step): the modulus is always that of the spectrum, the other measures if the step is one or the offset zero and not in general. It raises for a span of zero or no times. Split lists are drawn on top of each other: line i is the line of the sum of the lists up to i, for times and for frequencies. plot_average_value_list_against_time shades the mean of the measured values plus and minus their standard error; its line is that mean for moduli and real parts, but zero for imaginary parts whatever the values.", "quantifier": "all numbers of lists and times, steps, offsets and spans, values and measures", "why_tests_cant": "That the rolled and shifted transform is the spectrum over the times, and for which offsets and steps it is not, is an identity over all lengths (odd and even), offsets and values; a picture of one example with offset zero shows no error.", "anchors": ["surface_potential_analysis/state_vector/plot_value_list.py: plot_value_list_against_nx, plot_value_list_against_time, plot_value_list_against_frequency, plot_split_value_list_against_time, plot_split_value_list_against_frequency, plot_all_value_list_against_time, plot_average_value_list_against_time"]}
{"id": "C120", "title": "Occupations of eigenstates and bands", "statement": "plot_eigenstate_occupations draws, in ascending order of the energies above the lowest, positive occupations that sum to one and whose ratios are the Boltzmann factors of the differences in energy; shifting all energies or drawing again gives the same line, but the eigenvalues of the caller are shifted so that the lowest is zero. plot_eigenvalues draws each eigenvalue once, in the order of moduli. Occupations of eigenstates by a state are the squared overlaps: they sum to the squared norm, their first moment is the mean energy above the lowest, and the average over states is the mean of these. Thermal occupations of bands sum to one, do not change if all energies are shifted, and a band below another has at least its occupation. Total occupations of bands by a state sum to its squared norm, the dashed line lies between the energies and is at the mean energy of the state if bands are flat; a state of zero raises. plot_probability_per_band and per_site draw at each time the sums over sites and over bands.", "quantifier": "all numbers of states, bands, samples, sites and times; all energies, temperatures other than zero, unitary matrices of eigenvectors, states and probabilities; every sorting np.argsort may return", "why_tests_cant": "Sum rules over every Hamiltonian, state and temperature, and independence of the order chosen by an unstable sort, are universal; that a drawing function changes its argument is seen only if the argument is used again.", "anchors": ["surface_potential_analysis/state_vector/eigenvalue_list_plot.py: plot_eigenstate_occupations, plot_eigenvalues", "surface_potential_analysis/state_vector/plot.py: plot_all_eigenstate_occupations, plot_average_eigenstate_occupation, get_average_band_energy, plot_total_band_occupation_against_energy", "surface_potential_analysis/wavepacket/plot.py: get_wavepacket_band_occupation, plot_occupation_against_band, plot_occupation_against_band_average_energy", "surface_potential_analysis/probability_vector/plot.py: plot_probability_against_time", "surface_potential_analysis/dynamics/plot.py: plot_probability_per_band, plot_probability_per_site"]}
{"id": "C121", "title": "Potential elements with an oscillator subtracted", "statement": "For a surface whose last axis points along +z, the off-diagonal energies of the oscillator-subtracted Hamiltonian are the matrix elements of the potential less the oscillator's potential, between plane waves times the package's oscillator states, with potential and states measured from the same origin. They vanish for the oscillator's own potential and are Hermitian for every potential and axis; the transform of a potential with inversion symmetry is real; a potential with too few points along either of the other axes is refused. For an axis along -z the oscillator subtracted is not centred where the states are.", "quantifier": "all grids, resolutions, potentials, masses, frequencies, origins and lengths; up to 21 oscillator states", "why_tests_cant": "The elements combine a transform, folded indices, a memo table and oscillator states computed in another language: agreement with the integrals has to hold for every grid, potential and origin.", "anchors": ["surface_potential_analysis/hamiltonian_builder/sho_subtracted_basis.py: _SurfaceHamiltonianUtil", "surface_potential_analysis/stacked_basis/sho_basis.py: calculate_x_distances, infinate_sho_basis_3d_from_config", "lib/hamiltonian_generator/src/lib.rs: calculate_off_diagonal_energies"]}
{"id": "C122", "title": "Plots of noise kernels", "statement": "The truncation plot of a kernel shows, at t, the smallest sum of t moduli of the kernel's eigenvalues. For a diagonal kernel with orthonormal eigenvectors no entry of the kernel rebuilt from the c largest operators differs from the kernel's by more than the line's height at n-c. The eigenvalue plot shows the largest eigenvalues in descending order, all of them without a truncation; a truncation t leaves out the t+1 smallest instead of keeping t. The sample plotted without a truncation is the sample of the noise less its value at the first point; with a truncation it adds the first operators of the list in place of those the truncation keeps. The error plot shows the e for which the fitted kernel is the true one plus e percent. The mesh of a diagonal kernel shows its entries with both axes starting half way round the cell.", "quantifier": "all kernels, eigendecompositions, orders of equal eigenvalues, truncations and drawn numbers", "why_tests_cant": "The bound has to hold for every kernel and every entry, and does so because of the spectral theorem and an extremal property of sorted sums; a plot is judged by eye.", "anchors": ["surface_potential_analysis/kernel/plot.py: plot_kernel_truncation_error, plot_diagonal_kernel_truncation_error, plot_diagonal_noise_operators_single_sample, plot_diagonal_noise_operators_eigenvalues, plot_diagonal_kernel_2d, plot_isotropic_kernel_error_1d"]}
{"id": "C123", "title": "Potentials and states along paths", "statement": "A potential drawn along a path shows, at every point of the path, its value at the grid point the path's integers are a repeat of, against the length of the path so far; with wrapped distances every step is the image of the path's step that is at most half the cell along each axis. A state is drawn the same way, but a path that leaves the cell by more than python's negative indices allow is refused. The path of smallest potential is the path given with the coordinate inserted at which the data are smallest along the axis, so for a potential given at the points of the grid the line shows the smallest value along the axis; for a potential given in another basis it does not.", "quantifier": "all bases, lattices, potentials, states, paths of at least one point, axes (also negative) and measures", "why_tests_cant": "Values, wrapped indices, argmins and lengths must agree for every path and lattice; a test fixes one path.", "anchors": ["surface_potential_analysis/potential/plot.py: plot_potential_along_path, get_minimum_path, plot_potential_minimum_along_path", "surface_potential_analysis/state_vector/plot.py: plot_state_along_path", "surface_potential_analysis/stacked_basis/util.py: calculate_cumulative_x_distances_along_path"]}
{"id": "C124", "title": "Points of lattices drawn in a plane", "statement": "Positions and momenta are drawn at their components along two orthogonal unit vectors in the plane of the (reciprocal) lattice vectors of the two axes, the first along the first axis and the second on the side of the second; axes out of range or along one line are refused. The plane of positions through an index shows every grid point with that index along the other axes once and no other. The Bragg points are the reciprocal lattice points with coefficients -1, 0 and 1, each once. The points of the Brillouin zone are the momenta of the first two axes, each moved by reciprocal lattice vectors with coefficients of at most two and never away from the origin; they need not lie in the first zone. The plane of momenta through an index uses the index along another axis than the one left out, and a grid index is drawn as if its entries were a position.", "quantifier": "all lattices, shapes, pairs of axes, indices and lists of points", "why_tests_cant": "The drawn plane, and which grid points are in it, must be right for every skew lattice, shape and pair of axes; a picture of one lattice cannot show a missing or a doubled point.", "anchors": ["surface_potential_analysis/stacked_basis/plot.py: plot_k_points_projected_2d, plot_x_points_projected_2d, plot_bragg_points_projected_2d, plot_brillouin_zone_points_projected_2d, plot_fundamental_k_in_plane_projected_2d, plot_fundamental_x_in_plane_projected_2d, plot_fundamental_x_at_index_projected_2d", "surface_potential_analysis/stacked_basis/util.py: project_k_points_along_axes, project_x_points_along_axes"]}
{"id": "C125", "title": "Energies of bands drawn against momentum, position and band", "statement": "For each band asked for, in that order, the line of its energies against momentum runs along the axis through the sample with the largest energy: each sample of that row is shown once, at its crystal momentum along the reciprocal lattice vector of the axis, at equal steps, and the first value again one step after the last. Against position the same holds of the Fourier transform of the energies at the lattice sites. A mesh shows the energy of every sample in the plane at the true distances of the crystal momenta, by default in the plane through the largest energy. Samples in any places are shown once each in the order of their momenta. Sample frequencies are drawn at two components of the crystal momenta of the samples of a plane; by default all samples are drawn, not only the plane at zero. Against the band, the transform at the site one lattice vector away is drawn, and the line of the free particle has the height of the modulus of the integral of its band over the first zone; for the bands of a free particle in one dimension the ratio of the two lines is known and tends to one. A band out of range is refused, and so is an axis with a single sample.", "quantifier": "all lattices, sample grids, bands, energies, axes, measures and indices", "why_tests_cant": "That the points are at the crystal momenta, in the right row and complete, must hold for every skew lattice, grid and list of bands; a plot of one cannot show a shifted or a missing sample, and the free-particle formula comes from an integral that no sample equals.", "anchors": ["surface_potential_analysis/wavepacket/plot.py: plot_wavepacket_sample_frequencies, plot_wavepacket_eigenvalues_2d_k, plot_uneven_wavepacket_eigenvalues_1d_k, plot_wavepacket_eigenvalues_1d_k, plot_wavepacket_eigenvalues_1d_x, plot_wavepacket_transformed_energy_1d"]}
{"id": "C126", "title": "The squared scale of axes", "statement": "The transform of the scale and its inverse undo each other up to sign, so exactly on values that are not negative; the scale keeps the order of moduli. The eight ticks are evenly spaced on the drawn axis between the squares of the ends of the view and are not negative; in a view of values that are not negative they lie in the view, increase and mark both ends. In a view that reaches below zero they can lie outside, and in a symmetric view they coincide.", "quantifier": "all values and views", "why_tests_cant": "Even spacing and staying in the view must hold for every view, which users choose by zooming.", "anchors": ["surface_potential_analysis/util/squared_scale.py: SquaredScale, SquaredLocator"]}
{"id": "C127", "title": "Potentials read from JSON files", "statement": "A potential is read if and only if its points are nested lists of one shape with at least three levels (two for uneven heights). It then has one axis per level, with the vector of the file and as many points as the lists are long, and the number at any indices of the file is the value at the grid point with those indices. The heights of an uneven potential are kept as they are and not compared with the number of points.", "quantifier": "all files of nested lists of numbers", "why_tests_cant": "That no number is moved to another grid point, and that every ragged file is refused, must hold for every shape of file.", "anchors": ["surface_potential_analysis/potential/potential.py: load_potential_grid_json, load_uneven_potential_json"]}
{"id": "C128", "title": "Slices along one axis", "statement": "The index made from a slice and an axis uses the slice along that axis, counted from the end if negative, and keeps everything along the others; without a slice it makes a new axis with that place in the result. An axis out of range raises.", "quantifier": "all numbers of axes, axes of either sign and slices", "why_tests_cant": "It must hold for arrays with any number of axes and for both ways to count.", "anchors": ["surface_potential_analysis/util/util.py: slice_along_axis"]}
{"id": "C129", "title": "Bloch waves are the states of the supercell", "statement": "Take a lattice enlarged by the number of samples along every axis and the potential repeated in it. Between two states from get_bloch_states the Hamiltonian of this supercell is zero for different samples, and within a sample it is the Hamiltonian of the cell at the Bloch fraction of the sample. Eigenstates of the cell become eigenstates of the supercell with the same eigenvalue. So generate_wavepacket followed by get_bloch_states gives orthonormal eigenstates of the supercell with the stored eigenvalues, and with all bands get_full_bloch_hamiltonian gives every state of the supercell its energy under total_surface_hamiltonian. All this holds for odd numbers of points and for truncated plane waves; a state with a component at frequency - n / 2 (n even) gets another energy in the supercell.", "quantifier": "all numbers of axes, samples and points, lattices, real potentials, masses, bases, bands and states", "why_tests_cant": "It joins five functions and must hold for every potential, lattice and number of samples; small examples with odd numbers of points hide the edge frequency.", "anchors": ["surface_potential_analysis/hamiltonian_builder/momentum_basis.py: total_surface_hamiltonian", "surface_potential_analysis/wavepacket/wavepacket.py: generate_wavepacket", "surface_potential_analysis/wavepacket/get_eigenstate.py: get_bloch_states, get_full_bloch_hamiltonian"]}
{"id": "C130", "title": "The Wannier Hamiltonian is the Hamiltonian of the supercell", "statement": "Generate a wavepacket from the Hamiltonian of a cell, localise it with any operator, and build the Wannier states and the full Wannier Hamiltonian. Its entry (R, k; R', l) is the element of total_surface_hamiltonian of the supercell between the Wannier state (l, R') on the left and (k, R) on the right. If the operator has orthonormal columns at every sample, the components of each Bloch state along the Wannier states are an orthonormal set of eigenvectors with the energies of the bands. With all bands and a unitary operator, in particular the one of the tight binding states in one and two dimensions, the Wannier Hamiltonian has exactly the eigenvalues of the Hamiltonian of the supercell.", "quantifier": "all numbers of axes, samples, odd numbers of points, lattices, real potentials, masses, bands and operators of localisation", "why_tests_cant": "It joins the Hamiltonian, the diagonalisation, the localisation and the Fourier transforms of the Wannier Hamiltonian; agreement must hold for every potential, operator and number of samples.", "anchors": ["surface_potential_analysis/hamiltonian_builder/momentum_basis.py: total_surface_hamiltonian", "surface_potential_analysis/wavepacket/wavepacket.py: generate_wavepacket", "surface_potential_analysis/wavepacket/get_eigenstate.py: get_bloch_states", "surface_potential_analysis/wavepacket/get_eigenstate.py: get_wannier_states", "surface_potential_analysis/wavepacket/get_eigenstate.py: get_full_wannier_hamiltonian", "surface_potential_analysis/wavepacket/localization/_projection.py: get_localization_operator_tight_binding_projections"]}
{"id": "C131", "title": "Evolution in the supercell through Bloch states", "statement": "solve_schrodinger_equation_decomposition turns the component of a state along any eigenvector of the Hamiltonian by exp(-i e t / hbar), and an eigenvector itself is only turned by that phase. Generate a wavepacket from the Hamiltonian of a cell, form its Bloch states and evolve a state of the supercell with solve_schrodinger_equation_diagonal in the basis of the Bloch states with the energies of the wavepacket as diagonal. At every time the result holds the components along the Bloch states of the state evolved with solve_schrodinger_equation_decomposition under total_surface_hamiltonian of the supercell, for any selection of bands; with all bands the sum of the Bloch states with these coefficients is that evolved state.", "quantifier": "all numbers of axes, samples, odd numbers of points, lattices, real potentials, masses, selections of bands, initial states, lists of times and values of hbar other than zero", "why_tests_cant": "The two routes diagonalise different matrices and share no code after the potential; agreement must hold for every potential, state and time.", "anchors": ["surface_potential_analysis/dynamics/schrodinger/solve.py: solve_schrodinger_equation_decomposition", "surface_potential_analysis/dynamics/schrodinger/solve.py: solve_schrodinger_equation_diagonal", "surface_potential_analysis/hamiltonian_builder/momentum_basis.py: total_surface_hamiltonian", "surface_potential_analysis/wavepacket/wavepacket.py: generate_wavepacket", "surface_potential_analysis/wavepacket/get_eigenstate.py: get_bloch_states", "surface_potential_analysis/basis/explicit_basis.py: ExplicitStackedBasisWithLength"]}
{"id": "C132", "title": "Conserved quantities of the Schrodinger evolution", "statement": "Along the states returned by solve_schrodinger_equation_decomposition for a Hermitian Hamiltonian, calculate_expectation of any operator changes at the rate i / hbar times calculate_expectation of get_commutator of the Hamiltonian with it. Operators that commute with the Hamiltonian, in particular the Hamiltonian itself, have the same expectation value in the state at every time as in the initial state, and so does the occupation of every eigenvector of the Hamiltonian.", "quantifier": "all bases, Hermitian Hamiltonians, operators, initial states, lists of times and values of hbar other than zero", "why_tests_cant": "Conservation must hold for every Hamiltonian, operator, state and time; the rate of change is a derivative with respect to a time that tests can only sample.", "anchors": ["surface_potential_analysis/dynamics/schrodinger/solve.py: solve_schrodinger_equation_decomposition", "surface_potential_analysis/operator/operations.py: get_commutator", "surface_potential_analysis/state_vector/eigenstate_calculation.py: calculate_expectation"]}
{"id": "C133", "title": "Energies in a smaller basis bound those in a larger one", "statement": "Let a Hermitian operator be converted with convert_operator_to_basis to a basis whose states are combinations of those of the basis it is given in. Then calculate_eigenvectors_hermitian of the result gives, for every n, an n-th lowest eigenvalue that is not below the n-th lowest eigenvalue of the operator itself, and an n-th highest one that is not above its n-th highest. The same holds between the results of converting one operator to two bases, the states of one being combinations of those of the other: enlarging a basis never raises an energy. It holds, too, for total_surface_hamiltonian of one real potential built in two such stacked bases on the same grid. Truncated plane-wave bases with fewer states along every axis, explicit bases given in another basis, and all bases in relation to a complete one are such bases.", "quantifier": "all Hermitian operators, all orthonormal bases of the library (stacked, truncated, sampled or explicit) of which one lies within the other, and all ranges of eigenvalues asked for", "why_tests_cant": "An inequality for every Hermitian operator and every pair of bases; a test checks it for the matrices it tries.", "anchors": ["surface_potential_analysis/operator/conversion.py: convert_operator_to_basis", "surface_potential_analysis/state_vector/eigenstate_calculation.py: calculate_eigenvectors_hermitian", "surface_potential_analysis/hamiltonian_builder/momentum_basis.py: total_surface_hamiltonian", "surface_potential_analysis/basis/basis.py: TransformedPositionBasis", "surface_potential_analysis/basis/explicit_basis.py: ExplicitBasis"]}
{"id": "C134", "title": "Energies depend on the potential monotonically and stably", "statement": "For real potentials on one grid, if one exceeds another by at most d at every grid point (d may be negative or zero) and its mass is not smaller, then every energy calculate_eigenvectors_hermitian returns for its total_surface_hamiltonian exceeds the energy of the same number for the other by at most d, at every Bloch fraction. So raising a potential or lowering the mass lowers no energy, and potentials that differ by at most d have energies that differ by at most d.", "quantifier": "all stacked bases accepted by the constructors, lattice vectors, Bloch fractions, pairs of real potentials, positive masses and ranges of eigenvalues asked for", "why_tests_cant": "An inequality between the spectra for every pair of potentials; a test compares the potentials it tries.", "anchors": ["surface_potential_analysis/hamiltonian_builder/momentum_basis.py: total_surface_hamiltonian", "surface_potential_analysis/state_vector/eigenstate_calculation.py: calculate_eigenvectors_hermitian"]}
{"id": "C135", "title": "Energies at opposite Bloch fractions", "statement": "For a real potential in a plane-wave basis with an odd number of plane waves along every axis, the energies calculate_eigenvectors_hermitian returns for total_surface_hamiltonian at a Bloch fraction are those at the opposite fraction. With an even number of plane waves along an axis this does not hold: the set of plane waves then contains a wave without its opposite, and for a free particle in two plane waves the higher energies at a quarter and at minus a quarter differ.", "quantifier": "all stacked bases of full or truncated plane waves with odd numbers of states, lattice vectors, masses, real potentials, Bloch fractions and ranges of eigenvalues asked for", "why_tests_cant": "An equality of spectra for every potential and fraction; a test compares the potentials it tries, and one with odd numbers of waves does not show that even ones fail.", "anchors": ["surface_potential_analysis/hamiltonian_builder/momentum_basis.py: total_surface_hamiltonian", "surface_potential_analysis/state_vector/eigenstate_calculation.py: calculate_eigenvectors_hermitian"]}
{"id": "C136", "title": "Moving a potential does not change the energies", "statement": "If one real potential has at every grid point the value another has at the point displaced by a fixed whole number of grid points along each axis, periodically, then total_surface_hamiltonian of both has the same energies, at every Bloch fraction, as calculate_eigenvectors_hermitian returns them.", "quantifier": "all stacked bases of full or truncated plane waves, displacements, lattice vectors, masses, real potentials, Bloch fractions and ranges of eigenvalues asked for", "why_tests_cant": "An equality of spectra for every potential and displacement; a test tries some of each.", "anchors": ["surface_potential_analysis/hamiltonian_builder/momentum_basis.py: total_surface_hamiltonian", "surface_potential_analysis/state_vector/eigenstate_calculation.py: calculate_eigenvectors_hermitian"]}
{"id": "C137", "title": "The sum of the energies, and energies of shifted and scaled potentials", "statement": "For a real potential in a plane-wave basis, all energies calculate_eigenvectors_hermitian returns for total_surface_hamiltonian add up to the kinetic energies of the plane waves of the basis, at the Bloch fraction, plus the mean of the potential over the grid for every state. In every stacked basis, adding a constant to the potential adds it to every energy, normalize_potential lowers every energy by the smallest value of the potential, and multiplying the potential by a positive factor while dividing the mass by it multiplies every energy by the factor.", "quantifier": "all stacked bases accepted by the constructors (for the sum: full or truncated plane waves), lattice vectors, Bloch fractions, real potentials, positive masses, constants, positive factors and ranges of eigenvalues asked for", "why_tests_cant": "Equalities between spectra for every potential; a test compares those it tries.", "anchors": ["surface_potential_analysis/hamiltonian_builder/momentum_basis.py: total_surface_hamiltonian", "surface_potential_analysis/state_vector/eigenstate_calculation.py: calculate_eigenvectors_hermitian", "surface_potential_analysis/potential/potential.py: normalize_potential"]}
{"id": "C138", "title": "Products and sums of operators and lists of operators in different bases", "statement": "matmul_operator_list and matmul_diagonal_list_operator return, for every operator of the list, the matrix product with the inner bases related by their overlaps, whatever their numbers of states. matmul_list_operator and matmul_operator_diagonal_list do so when both inner bases have the same number of states, and raise otherwise, because they reshape the converted data with the shape from before the conversion. add_list_list and subtract_list_list of lists with flat data combine the entries of the first with those of the second in the bases of the first.", "quantifier": "all operators and lists of operators with data of the right size, in all compatible orthonormal bases", "why_tests_cant": "All pairs of bases and all data; tests use equal bases, for which the shapes before and after the conversion agree.", "anchors": ["surface_potential_analysis/operator/operations.py: matmul_operator_list", "surface_potential_analysis/operator/operations.py: matmul_list_operator", "surface_potential_analysis/operator/operations.py: matmul_operator_diagonal_list", "surface_potential_analysis/operator/operations.py: matmul_diagonal_list_operator", "surface_potential_analysis/operator/operations.py: add_list_list", "surface_potential_analysis/operator/operations.py: subtract_list_list"]}
{"id": "C139", "title": "Energies of potentials that are sums over perpendicular directions", "statement": "If the lattice vectors of the first axes are perpendicular to those of the last axes, and the potential at every grid point is a function of the first coordinates plus one of the last, the elements of total_surface_hamiltonian at any Bloch fraction are those of the Hamiltonian of the first axes (times the identity) plus those of the last. Its eigenvalues are exactly the sums of one eigenvalue of each, every pair once, and the lowest is the sum of the lowest. solve_schrodinger_equation_decomposition turns the product of a state of the first axes and one of the last into the product of the two evolved states at every time.", "quantifier": "all numbers of axes in either group, all bases with orthonormal explicit states, all lattices in which the groups are perpendicular, all such potentials (real ones for the evolution), masses and Bloch fractions", "why_tests_cant": "The order in which sums of energies appear depends on the potential, and the claim ranges over all of them, all lattices and all bases.", "anchors": ["surface_potential_analysis/hamiltonian_builder/momentum_basis.py: total_surface_hamiltonian", "surface_potential_analysis/hamiltonian_builder/momentum_basis.py: hamiltonian_from_mass_in_basis", "surface_potential_analysis/hamiltonian_builder/momentum_basis.py: hamiltonian_from_potential", "surface_potential_analysis/dynamics/schrodinger/solve.py: solve_schrodinger_equation_decomposition"]}
{"id": "C140", "title": "A free particle in plane waves", "statement": "If the potential is constant, total_surface_hamiltonian in a plane-wave basis is diagonal: the constant plus the kinetic energy of each plane wave of the basis at the Bloch fraction. calculate_eigenvectors_hermitian returns exactly these energies, each plane wave once, in ascending order, and solve_schrodinger_equation_decomposition only turns the component of every plane wave by the phase of its energy. For any real potential whose values lie between two values, every energy lies between these two values above the kinetic energy with the same number in ascending order.", "quantifier": "all lattices, numbers of axes and points, complete or truncated plane-wave bases, constants or real potentials, masses, Bloch fractions, states and times, and all eigensolvers returning an orthonormal set of eigenvectors", "why_tests_cant": "The order of the plane waves by energy depends on the lattice and the fraction, levels may coincide so that eigenvectors are not unique, and the claim ranges over all of them.", "anchors": ["surface_potential_analysis/hamiltonian_builder/momentum_basis.py: total_surface_hamiltonian", "surface_potential_analysis/hamiltonian_builder/momentum_basis.py: hamiltonian_from_mass_in_basis", "surface_potential_analysis/state_vector/eigenstate_calculation.py: calculate_eigenvectors_hermitian", "surface_potential_analysis/dynamics/schrodinger/solve.py: solve_schrodinger_equation_decomposition"]}
{"id": "C141", "title": "Band energies are continuous in the Bloch fraction", "statement": "For a real potential in any stacked basis, an energy calculate_eigenvectors_hermitian returns for total_surface_hamiltonian changes between two Bloch fractions by no more than the largest change of the kinetic energy of a plane wave of the grid. So near every Bloch fraction the energies change by at most a constant times the largest change of a component of the fraction: each band, numbered by energy, is continuous.", "quantifier": "all real potentials, lattices, bases with orthonormal explicit states, masses, pairs of Bloch fractions and numbers of the energy", "why_tests_cant": "Continuity is a claim about all pairs of nearby fractions; bands that cross keep their number and not their state, so that comparing samples of eigenvectors does not settle it.", "anchors": ["surface_potential_analysis/hamiltonian_builder/momentum_basis.py: total_surface_hamiltonian", "surface_potential_analysis/hamiltonian_builder/momentum_basis.py: hamiltonian_from_mass_in_basis", "surface_potential_analysis/state_vector/eigenstate_calculation.py: calculate_eigenvectors_hermitian"]}
{"id": "C142", "title": "Energies bound expectation values, and mixtures of potentials", "statement": "calculate_expectation of a Hermitian operator is real and lies between the lowest and the highest eigenvalue calculate_eigenvectors_hermitian returns, times the squared norm of the state; both are attained by normalised states. So the lowest energy of total_surface_hamiltonian for a mixture t V1 + (1 - t) V2 of two potentials is not below the same mixture of their lowest energies, and the highest is not above that of the highest.", "quantifier": "all Hermitian operators and states in bases with orthonormal explicit states; all pairs of real potentials, weights from 0 to 1, lattices, masses and Bloch fractions", "why_tests_cant": "Inequalities over all states and all pairs of potentials; samples show only that some states obey them.", "anchors": ["surface_potential_analysis/state_vector/eigenstate_calculation.py: calculate_expectation", "surface_potential_analysis/state_vector/eigenstate_calculation.py: calculate_eigenvectors_hermitian", "surface_potential_analysis/hamiltonian_builder/momentum_basis.py: total_surface_hamiltonian"]}
{"id": "C143", "title": "Evolution respects time reversal and translations of the grid", "statement": "In plane waves, with an odd number along every axis, and a real potential: if the amplitudes of one state are the complex conjugates of those of another, solve_schrodinger_equation_decomposition for the first at the opposite times and with the Hamiltonian of total_surface_hamiltonian at the opposite Bloch fraction returns states whose amplitudes are the complex conjugates of those it returns for the other. With any number of plane waves: a state moved by points of the grid and evolved in the potential moved by the same points is the evolved state moved by these points, at the same Bloch fraction. With an even number of plane waves the reversal can fail.", "quantifier": "all real potentials, lattices, numbers of plane waves kept along each axis (odd for the reversal), masses, Bloch fractions, displacements, states and lists of times", "why_tests_cant": "The states, times and potentials range over continua, and eigenvectors of equal energies may be returned in any orthonormal choice, differently for the two Hamiltonians.", "anchors": ["surface_potential_analysis/dynamics/schrodinger/solve.py: solve_schrodinger_equation_decomposition", "surface_potential_analysis/hamiltonian_builder/momentum_basis.py: total_surface_hamiltonian"]}
{"id": "C144", "title": "Evolution in scaled and shifted potentials, and overlaps at opposite times", "statement": "For a real potential in any stacked basis: if the potential is multiplied by a number r and raised by a constant c, and the mass is divided by r, then solve_schrodinger_equation_decomposition with the Hamiltonian of total_surface_hamiltonian returns at time t the state it returned before at time r t, turned by exp(-i c t / hbar), so that all probability densities agree. For any Hermitian operator, the inner product of a second state with the first one evolved for a time is that of the second one evolved for the opposite time with the first.", "quantifier": "all real potentials, lattices, bases with orthonormal explicit states, masses, Bloch fractions, r other than 0, constants c, states and lists of times; all Hermitian operators and pairs of states", "why_tests_cant": "All states, times, factors and constants range over continua, and eigenvectors of equal energies may be chosen differently for the two Hamiltonians.", "anchors": ["surface_potential_analysis/dynamics/schrodinger/solve.py: solve_schrodinger_equation_decomposition", "surface_potential_analysis/hamiltonian_builder/momentum_basis.py: total_surface_hamiltonian"]}

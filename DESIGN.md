# Formal model of surface_potential_analysis — design

## What this is

`/verif/rocq` holds a Rocq (Coq 8.16.1) model of the numerical core of
`surface_potential_analysis` (python, and the Rust extension
`hamiltonian_generator`) and proofs of the properties in `properties.jsonl`.
Theorems are about the model.  The tie to the code is the citation of file and
lines above every model definition.

## Trusted base

* Coq's kernel (`coqc`; `coqchk` also accepts the compiled files).
* The axioms printed by `Print Assumptions` under each theorem in the
  `Properties*.v` files; `AXIOMS.md` lists them theorem by theorem.  All are from
  Coq's standard library:
  `ClassicalDedekindReals.sig_forall_dec` and `sig_not_dec` (stdlib reals),
  `FunctionalExtensionality.functional_extensionality_dep` (used by the stdlib
  reals), and `Classical_Prop.classic` (Coquelicot's limits and integrals).
  Integer and index theorems are closed under the global context.
  No axiom, parameter, functor or module type is declared here.
* The reading of numpy/scipy: the meaning given to slicing, `reshape`,
  `swapaxes`, `roll`, `ravel_multi_index`, `fft`/`ifft(norm="ortho")`, `einsum`,
  `argsort`, and so on, stated where each is defined (`NumPy.v` and the model
  files).
* Exact arithmetic: floating point rounding is not modelled anywhere.  The
  machine integers of the Rust code are (C69, C71).

## Representation

* Numbers: Coquelicot's `C` over stdlib `R`; indices in `nat`/`Z`.
* 1-D data of length n: a function `nat -> A` of which only indices `< n` are
  meaningful.  Theorems only read in-range indices and hold for all functions, so
  a model that read out of range could not be proved.
* N-D data: row-major (C order) flat data plus a shape, numpy's layout;
  `reshape` is therefore the identity on the flat data.
* Data-movement functions are polymorphic in the element type and computable.
* Exceptions (`assert`, `zip(strict=True)`, broadcasting errors, `IndexError`,
  Rust panics) are `None`.
* Linear algebra oracles (`eigh`, `eig`, `svd`, `inv`, `solve`, `argsort`) are
  arguments constrained by their defining equation; theorems hold for every
  output satisfying it.  That the constraints can be met is proved: `eigh_exists`
  and `svd_exists` (`Spectral3.v`) build the spectral and the singular value
  decomposition of every matrix of the right kind; solvability of the linear
  system of C66 and sorting permutations are likewise shown to exist.
* Object identity (`a is b`) is an argument `same`, constrained to relate only
  equal bases.

## Files

* Foundations: `ZLib`, `Csum` (finite sums), `DFT`, `NumPy`, `IndexSum`,
  `SpecMatrix`, `LinAlg`, `Polar`, `Spectral*`, `GaussianIntegral`.
* Model files (definitions only, each citing /repo): `Interp`, `Index`,
  `Lattice`, `Basis`, `Operator`, `Reduce`, `Kernel`, `Cache`, `Wavepacket`,
  `Localize`, `Hamiltonian`, `Dynamics`, `Brillouin`, `Oscillator`, `Generator`
  and those named in the property table.
* `Spec*.v`: the small specifications the theorems are stated with; they do not
  mention the model functions.
* `*Proofs*.v`, `*Facts*.v`: proofs, witnesses and examples.
* `Properties*.v`: the theorems of MANIFEST.json and nothing else, with an
  example meeting the hypotheses beside them.

## Not modelled at all

Plotting (except the lines and meshes of C117), file formats (except the caches of C42/C43 and the
files of C81, C82 and C113), scipy splines and
`curve_fit`, qutip and the Rust SSE solvers, random numbers, dtype promotion
except in C48, floating point, performance.

## Property table

`model` names the file(s) in `rocq/theories` holding the modelled functions; the theorems are in MANIFEST.json and in the `Properties*.v` files.

| id | title | model | how it is proved | limits and remarks |
|----|----|----|----|----|
| C01 | Padding or truncating Fourier points keeps every frequency in its own slot | Interp | python slices on one axis and on N axes (the `itertools.product` loop); pointwise characterisation by signed frequency |  |
| C02 | Padding Fourier points then truncating back is the identity | Interp | corollary of C01 |  |
| C03 | nk_points list each signed residue once, in FFT order | Index | integer arithmetic |  |
| C04 | Flat and stacked indices are mutually inverse | Index | mixed-radix induction over the shape |  |
| C05 | wrap_index_around_origin returns the nearest periodic image | Index | integer arithmetic, lifted over the list of axes |  |
| C06 | wrap_x_point_around_origin translates by whole lattice vectors | Lattice | reals with floor-based remainder |  |
| C07 | get_data_in_axes returns the requested axes in the requested order | Index | slice list and transposition; permutation argument on argsort |  |
| C08 | Evenly spaced sampling places sample k at k*step+offset | Interp, Basis | roll and strided slices; integer arithmetic |  |
| C09 | convert_vector computes the projection onto the target basis states | Basis | inductive type of bases mirroring the classes, semantic function `bstate` (the state each basis vector stands for); refinement by induction on bases |  |
| C10 | Round trips through a finer basis are exact | Basis | from C09 and orthonormality |  |
| C11 | Conversion to a complete basis preserves inner products and norms | Basis | from C09 and completeness (Parseval) |  |
| C12 | Converting through an intermediate complete basis changes nothing | Basis | from C09 and completeness |  |
| C13 | Stacked conversion acts axis by axis | Basis | the product part of the induction of C09 |  |
| C14 | convert_matrix is a similarity transform | Basis | `convert_matrix` as two conversions, on top of C09 |  |
| C15 | An orthonormal explicit basis round-trips; otherwise conversion is the projection | Basis | C09 for explicit bases; projection algebra |  |
| C16 | Diagonal and full operator lists convert losslessly | Operator | finite sums, flat index arithmetic |  |
| C17 | Commutators obey their algebra | Operator | finite sums; ring identities entrywise |  |
| C18 | operator_from_eigenstates rebuilds the operator | Operator | spectral sums; the eigen-equation is a hypothesis |  |
| C19 | Periodic displacement matrices give minimum images | Lattice | integer arithmetic |  |
| C20 | _wrap_displacements keeps the image nearest to zero | Lattice | floor arithmetic over the reals |  |
| C21 | Diagonal and full noise kernels convert losslessly | Kernel | finite sums, index arithmetic |  |
| C22 | Isotropic and diagonal kernels convert consistently | Kernel | modular index arithmetic | finding: the one-dimensional inverse reverses the kernel |
| C23 | Noise operators from eigenvectors rebuild the kernel | Kernel | spectral sums | np.linalg.eigh is an argument constrained by A = V diag(l) V^dagger; finding: rectangular bases are not rebuilt |
| C24 | FFT noise operators rebuild the isotropic kernel | Kernel | DFT inversion, one axis and any number of axes | includes the resampled operators when fundamental_n divides the size |
| C25 | Cosine/sine noise operators give the cosine series of the coefficients | Kernel | trigonometric identities | finding: real_isotropic_fft operators and eigenvalues have different counts |
| C26 | Axis kernels multiply to the isotropic kernel | Kernel | index arithmetic and products over axes |  |
| C27 | Truncating noise operators keeps the strongest | Kernel | sorting permutation | np.argsort is an argument constrained to return a sorting permutation; finding: full version sorts by signed eigenvalue |
| C28 | Unfurling a wavepacket puts every component at its own momentum | Wavepacket | frequency arithmetic, any number of axes | finding: a position-type list basis mixes the samples |
| C29 | Wavepacket samples are the signed fractions and hold the eigenstates there | Wavepacket | frequency arithmetic; `eigh` as constrained argument | scipy.linalg.eigh is an argument constrained by eigh_ok, shown to be satisfiable; finding: a position-type list basis of odd length gets fraction zero for every sample |
| C30 | Localisation with row-orthonormal operators preserves orthonormality | Localize | finite sums | finding: the localised Hamiltonian is the transpose of the matrix of H; the identity operator takes its row basis from the samples |
| C31 | Projection localisation yields the closest orthonormal states | Localize | trace inequality from the singular value decomposition, polar factor | scipy.linalg.svd is an argument constrained to return a thin singular value decomposition, shown to exist; finding: more projections than bands give non-orthonormal states |
| C32 | Tight-binding localisation fixes the phase and nothing else | Localize | complex phases | the point is given; the search for a maximum and the two-point variants are not modelled |
| C33 | The momentum-basis Hamiltonian is the potential plus the free-particle energies | Hamiltonian | DFT of the potential, plane-wave kinetic energies, finite sums | exact arithmetic; the python inverse of the lattice vectors is assumed exact |
| C34 | The continuous potential interpolates the grid values | Hamiltonian | trigonometric interpolation | finding: the returned function is complex between grid points for even axes |
| C35 | Potential truncation is undone only for n = 1 | Hamiltonian | exp, ln and real powers | one real energy at a time; negative arguments of the roots for n >= 2 not modelled; finding: undo is wrong for n >= 2 |
| C36 | normalize_potential shifts the minimum to zero | Hamiltonian | minimum of a list, complex order as numpy orders it | values without nan |
| C37 | Tunnelling rate equations conserve probability | Dynamics | column sums; Gershgorin argument for the eigenvalues | finding: the diagonal of the matrix passed in is set to zero |
| C38 | The A matrix places each jump rate on translated neighbours | Dynamics | index arithmetic, sums over hops | finding: the default n_bands only works for a single band |
| C39 | Schrodinger evolution by eigenstates is unitary and a group action | Dynamics | spectral sums, exponentials, derivative | scipy.linalg.eigh is an argument constrained by eigh_ok; exact arithmetic, the two numerical assertions are not modelled; solve_schrodinger_equation (qutip) not modelled |
| C40 | The Fey-model ISF is a proper decay | Dynamics | real algebra and monotonicity | numpy divides by zero silently where the model returns None |
| C41 | Banded operators rebuild the original | Dynamics | index arithmetic | finding: an element whose modulus is above the threshold can be lost |
| C42 | What a pickle-cached function returns, over every history and schedule | Cache | state machine of file system and processes with crash steps, invariants over every schedule | the function is deterministic; pickle is an argument constrained to round trip and to reject proper prefixes; finding: truncated files poison the cache, None is never cached, two writers can produce a wrong value |
| C43 | npy_cached: loads with the .npy suffix, evaluates on every call without it | Cache | the same machine with the npy suffix rule | np.save/np.load are arguments constrained in the same way; finding: paths without .npy never hit, object arrays raise on the second call |
| C44 | decrement_brillouin_zone folds towards the origin, lowers the zone and terminates | Brillouin | nearest Bragg plane; counting argument for termination | findings: zones can be skipped, fixed points outside the first zone of skew lattices, raises unless three axes |
| C45 | Probabilities are normalised | Reduce | finite sums over axes | sum_probabilities default axis and plain tuple basis are recorded as findings; weights argument not modelled |
| C46 | Displacements on a skew lattice are not periodic (finding) | Lattice | counterexample |  |
| C47 | get_displacements_matrix_x does not return a displacement matrix (finding) | Lattice | counterexample |  |
| C48 | Converting a real vector to its own basis reinterprets memory (finding) | Basis | counterexample on reinterpreted storage |  |
| C49 | BasisUtil.vectors are the basis states | Basis | from C09 |  |
| C50 | __into_transformed__ and __from_transformed__ are components in the momentum basis | Basis | from C09 |  |
| C51 | A function of an operator does not depend on the eigendecomposition | Operator | spectral calculus; Lagrange interpolation for independence of the decomposition | np.linalg.eig / inv are arguments constrained by their defining equations |
| C52 | Operator arithmetic and stored array shapes | Operator | flat index arithmetic | finding: product plus flat operator raises |
| C53 | Sums and averages of diagonal operators over axes | Reduce | finite sums over axes | findings: default axes and negative axes; weights argument not modelled |
| C54 | as_flat_operator returns a basis that does not fit its data | Operator | sizes | finding |
| C55 | Truncating a noise kernel | Kernel | from C23 and C27 | finding: truncate_diagonal_noise_kernel collapses to one entry |
| C56 | Temperature correction of noise operators | Kernel | algebra of operators |  |
| C57 | Taylor expanded noise operators | Taylor | power series of both sides in the squared displacement are compared term by term; the linear system is a scaled Vandermonde system in the squared integers, solvable because the nodes are distinct; the cosine and sine operators are those of C25; the overflow is refuted with an integer certificate for the two wrapped columns | Exact arithmetic except that the matrix of integer powers wraps at 64 bits as numpy's does. The linear solver is any function that returns a solution of every invertible system. Findings: overflow from the eleventh term on; the lorentzian eigenvalues do not match the operators; the linear operators do not represent a gaussian of the distance; the stacked operators have amplitude a^(2 ndim). |
| C58 | Noise operators fitted to an isotropic kernel | Taylor | T_n(cos x) = cos nx; mirror pairs of points share a node, so the error splits into a fixed part and the distance from the averages, which an interpolant brings to zero; the fit is as good, hence equal to the averages; the stacked case reuses C26 and C60 | Exact arithmetic. The fit is any function whose result minimises the weighted squared error; one is constructed. |
| C59 | Kernels of operators with real or non-negative eigenvalues | Kernel | quadratic forms |  |
| C60 | Noise operators built axis by axis | Kernel | products over axes |  |
| C61 | Bloch states are the plane wave times the cell-periodic state and are orthonormal | Wavepacket | frequency arithmetic, plane waves | negative flat indices raise because get_stacked_index uses np.unravel_index |
| C62 | Wannier states are translated copies and orthonormal | Localize | geometric sums over fractions | finding: the translation uses the number of basis states, so truncated bases give overlapping states |
| C63 | Wavepacket lists split, collect and subsample without moving data | Wavepacket, Localize | slices and reshapes | slices of the list (get_wavepackets) not modelled; findings: a generator loses its first element, the resampled list is labelled with a position-type basis |
| C64 | The full Wannier Hamiltonian holds the matrix elements between Wannier states | Localize | finite sums | finding: the matrix is the transpose of that of H and its rows are ordered (cell, band) while the states are ordered (band, cell) |
| C65 | get_potential_derivative is the partial derivative | Hamiltonian | Coquelicot derivatives of finite trigonometric sums | Coquelicot derivative of real and imaginary part |
| C66 | Tunnelling simulations solve the rate equation and reach equilibrium | Dynamics | matrix exponential by eigenvectors; uniqueness of the solution of the rate equation | scipy.linalg.eig and solve are arguments constrained by their defining equations |
| C67 | Which rates the collapse operators of a rate matrix produce | Dynamics | finite sums | finding: squared and transposed rates; complex comparison modelled for real rates |
| C68 | Scattering functions of localised occupations | Dynamics | triangle inequality, weighted averages | the inverse of the supercell vectors is an argument |
| C69 | Oscillator states solve the oscillator | Oscillator | Hermite recurrence, Gaussian integral proved from scratch, integration by parts; machine integers with wrap-around | Exact reals; scipy.special.eval_hermite is modelled by its recurrence. Machine integers wrap as in a release build. Findings: compiled factorial overflows at level 21 (norm 3.6), compiled coefficients overflow at degree 26. |
| C70 | Where the discretised oscillator is centred | Oscillator | projection algebra | Finding: calculate_x_distances adds the projected origin, so zero lies at minus the origin. |
| C71 | Compiled off-diagonal energies are the matrix of the potential | Generator | DFT inversion with wrapped indices; machine arithmetic of the compiled code | The whole claim is the characterisation with conjugated states. Finding: the second z state is conjugated instead of the first. Exact reals; debug asserts and index panics of the compiled code are modelled as None. |
| C72 | The explicit z Hamiltonian is the full Hamiltonian in its basis | Generator | C33 in one and two dimensions combined with C71 | numpy.linalg.eigh is an argument constrained by eigh_ok. Finding: the matrix is wrong for complex z states, e.g. eigenvectors with a phase or a Bloch fraction along z. |
| C73 | Compiled wavefunctions are Bloch functions | Generator | reciprocal vectors in the plane, Bloch phases | Exact reals; uses the compiled oscillator states, which are correct up to level 20 (C69). |
| C74 | Fourier interpolation of complex values | Fourier | each transform is a matrix along one axis; the composition with the padding is a product of one matrix per axis, whose entries are geometric sums | Exact arithmetic; the FFT of numpy and scipy is modelled by its defining sum. Finding: without axes the sizes are assigned to the last axes in reverse, contrary to the docstring. |
| C75 | Fourier interpolation of real values | Fourier | as C74 for the other axes; the half spectrum of the last axis is folded with its mirror image into a real kernel, computed for odd and even lengths | The whole claim is the characterisation, including the even case. Finding (known to the test suite): an even axis that grows is not interpolated through its own values. |
| C76 | Sampled noise has the kernel as its covariance | Sample | the factors have E[conj f f] = 1 and E[f f] = 0; the noise is linear in them, so double sums collapse; |sqrt z|^2 = |z|; the truncation that keeps all operators only permutes them (C27) | The random numbers are arguments of the model; an expectation value is any linear functional on the functions that have one. Finding: negative eigenvalues enter with their modulus. |
| C77 | Noise kernels built from a correlation function | Correlation | on an aligned lattice the wrapped components are at most half a cell, hence the closest image on each axis; squares add up; counterexamples are computed | Findings: lattices that are not aligned with the coordinates, axis kernels, and gaussian kernels with two axes. |
| C78 | Effective gaussian and lorentzian noise matches the friction | Correlation | 1 - u <= exp(-u) <= 1 - u + u^2/2 and the exact remainder of the lorentzian; distances along one axis are at most half the cell (C77) | hbar and the Boltzmann constant are arguments. Findings: the documented smallest correlation; the lorentzian kernel has twice the friction. |
| C79 | Gaussian noise operators reproduce the gaussian kernel | Correlation | a gaussian of a sum of squares is a product over the axes, so C60 applies; the truncation that keeps all only permutes (C27); on four points 1 - 2q + q^4 < 0 for q = exp(-1/4) | Finding: the noise is not positive on four points. |
| C80 | Noise kernels in another basis | KernelConvert | C23 turns the kernel into operators, C14 converts these, and summing over the operators first leaves a transform of the kernel alone; compositions use the completeness of the basis in between | np.linalg.eigh enters as an assumption on what it returns. Findings: bases of different sizes, isotropic kernels. |
| C81 | Overlaps and projections handed to Wannier90 | Wannier | texts are lists of characters; the list of neighbours is recovered by induction over lines and words; an offset in momentum space is a wave in position space (shift theorem per axis), conversions keep amplitudes, and projections use the Bloch form of C61 | The printing of floats and the win file are not modelled; files written are given by their content. |
| C82 | Localisation operators read from Wannier90 | Wannier | slices of the lines with a step pick one entry of every block; combined with C30 | Python's float on a token is a parameter. |
| C83 | Symmetry operations on samples | Wannier | components of the stacked index; collision by an explicit pair; counterexample on a 5 by 5 grid | Findings: exchange of axes of different lengths, representatives under several operations. |
| C84 | Overlaps of states and wavepackets | Overlap | composes the Bloch form of C28 with the conversion to points, inner products by orthonormality of the momentum basis; shifts as Euclidean division of the flat index; file names by splitting at the separators and injectivity of decimal printing | Findings: shifts along other axes, conversion to momentum. The optional last conversion of calculate_wavepacket_list_overlap is not modelled. |
| C85 | Interpolation of overlaps in momentum | Overlap | the phase is rewritten by lattice directions and reduced modulo the axis lengths; the bound is Cauchy-Schwarz; kept and dropped terms from what argsort guarantees; the bias by the sum of squared cosines | Findings: get_overlap_momentum_interpolator_flat always raises (C85_flat_interpolator_raises), fractions with unequal axes, bias of the angular average. A negative number of points is not modelled. |
| C86 | Lists of states | StateList | rows of row-major data; the slice and the transposition of C07 for the states along axes, with the shape read off the sorted axes; sums over axes from C45 | Findings: axes out of order, the basis of the first collected state. Averages with weights and negative axes are not modelled. |
| C87 | Inner products of states | StateList | conversion as the matrix of overlaps (C09), sums exchanged; adjoint from the conjugate of the overlap; positivity as the norm of the weighted sum | Findings: products with eigenvalues do not convert, elementwise products accept a list of one state. |
| C88 | Seed states for localisation | SeedStates | phases as plane waves (roots of unity); frequencies of the bands differ by less than the number of momenta; translation as a phase per momentum; Cauchy-Schwarz for the bound | Findings: the states at single points raise or contain zero states unless the number of bands is close to the square root of the number of basis states. For fractions off the grid only the occupations are proved: the phases use slot numbers, not signed frequencies. |
| C89 | Friction integrals of an adsorbate on a metal | GammaIntegral | Riemann integrals of Coquelicot; continuity by differentiability; the angle where the expression of the potential changes splits the interval; bounds by comparing integrands | Numerical integration is taken to be exact. Findings: the factor in front has the cube of hbar where the documentation has hbar, and the momentum used is half of the change of wavevector. |
| C90 | Bases of times and of Bloch fractions | TimeBasis | Division with remainder for the wrapped samples; real arithmetic | Findings: the fundamental times include the end of the span, so the times are not among them; the span of an explicit basis is its spacing. |
| C91 | Localised stochastic Schrodinger solver | LocalizedSSE | The combinations diagonalise the matrix of inner products; completeness of its eigenvectors gives the sums over all choices; induction over the rounds | qutip.ssesolve, the eigensolver and the random choices are parameters. Findings: the chosen state is not normalised, only one realisation is used, at the times 0 and half a spacing, and the initial state is not stored. |
| C92 | Averages over pairs of times of trajectories | Trajectory | The correlation and the cumulative sums are re-indexed as sums over pairs; the bound on the scattering function is the triangle inequality for sums of phases | Real and complex arithmetic is exact. Findings: mean square instead of root mean square, the conjugate of the commented scattering function, a documented correlation with its arguments exchanged, and two drifts with a wrong sign or a wrong normalisation. |
| C93 | Average and restored positions of states on a periodic grid | Observables | Expectation values reduce to sums over the points by the conversion lemmas; the angle is characterised by its cosine and sine, unwrapping by induction over the times | Real and complex arithmetic is exact (np.angle is the exact angle). Finding: for more than one dimension the product of angles and lattice vector raises or mixes states with components. |
| C94 | Mean positions and momenta, spreads and coherent coordinates | Observables | Parseval for the momentum basis, mirrored frequencies for real wavefunctions, and equality in the triangle inequality for vanishing spread | Real and complex arithmetic is exact; a vanishing state gives nan in the code and no result in the model. Findings: position and momentum operators raise in more than one dimension, the spread changes its argument, and real wavefunctions can have a mean momentum. |
| C95 | Points projected along axes and the coordinates of slices | Paths | Invariant of the Gram-Schmidt loop over the axes (orthonormal, triangular, spanning); expansion of points in the plane | Real arithmetic is exact, so a vanishing vector is exactly zero (numpy divides by zero or by rounding errors). Finding: get_x_coordinates_in_axes reshapes to the shape of the basis, not of its points. |
| C96 | Cumulative lengths of paths | Paths | Uniqueness of the image within half a repeat; Cauchy-Schwarz for the triangle inequality | Real arithmetic is exact. Finding: the norms of calculate_cumulative_k_distances_along_path run over the points instead of the components. |
| C97 | Periodic averages of pairs of points | Paths | The mean direction is the cosine of the half difference times the direction of the mean; a chord bound keeps it above the tolerance | Angles are exact; np.isclose keeps its absolute tolerance of 1e-8, which bounds the number of points. Finding: the docstring's examples. |
| C98 | BlochBasis converts through the Bloch waves | BlochBasis | The shifts and transpositions are the bijection (sample, slot) -> slot of the supercell and its inverse; linearity of conversions; square isometries are unitary | Modelled for a list basis that is already the fundamental transformed one (the constructor converts to it) and one vector at a time. Finding: __into_fundamental__ uses shape where __from_fundamental__ uses fundamental_shape, so it raises for truncated state bases. |
| C99 | Bloch states keep their eigenvalues, and energies in the Bloch basis | BlochEnergies | Offsets wrap to the signed frequency of the sample; components along the Bloch waves from C98; Parseval for square isometries; arithmetic progressions for slices | For list bases of the fundamental transformed form. Finding: get_all_eigenstates zips the flattened data with the eigenvalues and so raises unless the cell has a single point; localize_position_operator and its many-band forms start with it. What those functions would do next is left open in the model (any continuation). |
| C100 | The states of the tight binding approximation | TightCell | Uniqueness of the representative in a window of one period; the flat indices kept are exactly the cell points with first position below the number of samples; reindexing of the sum over the supercell | For list bases of the fundamental transformed form and state bases with as many states as points (wrap_index_around_origin uses the number of states as the period). Findings: points are lost when there are fewer samples than points along the first axis (C100_missing_points, ..._refuted), the state is not normalised, and three axes raise. |
| C101 | Localisation by projections onto states of the supercell | Projections | Entries of the matrix of inner products equal overlaps of Bloch waves with the projection on the grid; 1x1 singular value decomposition gives the phase; nearest images by uniqueness of representatives; injectivity of floor(n i/s) for s <= n | svd enters through its properties (a function with them is shown to exist). Single band functions for list bases of the fundamental transformed form; C101_bands for every list basis. Findings: the exponential states always raise (C101_exponential_raises), the gaussian state exists for two axes only and takes widths and periods from the pair (list, state) (C101_gaussian, ..._centred_at_origin_refuted). |
| C102 | Localisation about a largest value of a wavepacket | TwoPoint | First largest value in the supercell transferred to the cell by periodicity of the modulus; np.mod of the phase difference gives the deviation; broadcasting computed for matrices and flat data | List bases of the fundamental transformed form. Findings: the single point variant always raises (C102_max_point_raises), the two point variant does not reshape flat data (C102_two_point_max_flat_refuted), points are wrapped by the number of states (C102_two_points_few_states_refuted). |
| C103 | Position and momentum forms of a state vector and its interpolation | StateInterp | Coefficients as inner products over the grid; the sum over the states of an axis is the kernel of Fourier interpolation (C74), multiplied over the axes by induction | Findings: every named axis uses the second entry of the shape (C103_interpolated, C103_requested_shape_refuted), a single axis always raises (C103_single_axis_raises). |
| C104 | Bases of eigenstates, matrix elements and operators applied to lists of states | EigenBasis | Overlaps with an explicit basis are its vectors; eigenvalue equation and orthonormality give the diagonal; square orthonormal rows give completeness (LinAlg); matrix elements by inserting the identity | scipy.linalg.eigh is assumed to return orthonormal eigenvectors and the chosen eigenvalues in ascending order (eigh_ok, inhabited: eigh_exists), np.linalg.eig eigenvectors of the operator at hand. Finding: the stacked class reports a shape that is not that of its states (C104_stacked_shape). |
| C105 | Spline interpolation along an axis, uneven potentials and the lowest column of a potential | Uneven | Induction over axes decides when strides join; swapping the axis twice restores the index; C75 for the planes; induction for the smallest value | The spline of scipy is a parameter assumed to depend on the points only and to go through them (spline_ok, inhabited: point_spline); what np.empty holds is a parameter. Findings: along other axes than the last one uninitialised memory may be returned (C105_other_axes, C105_first_axis_refuted); the height of the interpolated potential is that of n - 1 spacings (C105_uneven_spacing_refuted). |
| C106 | Probabilities, scattering functions and rate decompositions of tunnelling simulations | Incoherent | C66 for the simulated states; case analysis over nested bases for the raising functions; spectral decomposition of the rate matrix | Only the part of the two equilibrium averages before their first band is modelled, since it raises. Findings: calculate_isf_at_times, both equilibrium averages, get_jump_matrix_from_a_matrix and resample_tunnelling_a_matrix always raise; get_rate_decomposition returns eigenvectors as eigenvalues. |
| C107 | Fits of scattering functions to decays and to the Fey model | IsfFits | Algebra of the characteristic polynomial (uniqueness of roots), monotonicity of exponentials, lists filtered by a mask; curve_fit is a parameter | scipy's curve_fit is a parameter assumed to return parameters within the bounds that fit no worse than the start, and to raise for a start outside (curve_fit_ok, inhabited: exchanging_fit); fsolve is any function, its result being a root is a hypothesis of the extraction. The measure angle is not modelled. Findings: labels fast and slow are not determined (C107_fast_and_slow_refuted, C107_extraction_exists); error bars are ignored and the last time is never used (C107_window_and_error_bars). |
| C108 | What the stochastic Schrodinger solvers are asked to integrate | SseSolve | Scaling of the Euler step of the equation; accuracy of banded operators (C89 lemmas); conversions of operators (C11 lemmas) | The solvers themselves (qutip, sse_solver_py) are outside of the package: the theorems are about the arguments handed over and the Euler step of the equation with these arguments (SpecSseSolve). That output i lies i * step * dt after the start is assumed (the source of sse_solver_py is not here). Findings: the dense solver's times are wrong for step > 1 (C108_dense_times), qutip's rates are wrong by 1 / hbar (C108_qutip_rates_refuted), defaults raise (C108_banded_raises), C108_collapse_from_function. |
| C109 | The basis and the Hamiltonian of Wannier states | WannierBasis | Wannier states (C62 lemmas) as rows of an explicit basis, conversions (C11 lemmas); orthogonality of the waves of the samples; polar factors (C31 lemmas) | The order of the rows and the exchange of left and right of the full Hamiltonian are the findings of C64. scipy.linalg.svd is a function meeting svd_ok. |
| C110 | Bases with lattice vectors and their waves | VolumeBasis | Scalar products of points and wave vectors by the inverse of the lattice (C34 lemmas), conversions (C09 and C11 lemmas), induction on axes | Findings: basis_as_n_point_basis and its callers always raise NameError (C110_with_shape_raises, C110_single_points); a basis from a parent at another resolution is no target for conversions (C110_from_parent). np.linalg.inv enters as an inverse of the lattice. |
| C111 | Conversions of probability vectors | ProbConvert | Values of converted states (C09 and C11 lemmas), sums over axes by induction; lengths of slices for the errors | Findings: probabilities in bases other than points are converted as amplitudes, so totals and signs change (C111_total_and_sign_refuted); get_probability_along_axis only works for lists along one axis (C111_along_one_axis, C111_along_raises, C111_along_default_raises). |
| C112 | Collections of wavepackets with eigenvalues, and the bases of their samples | WaveLists | Conversion by overlaps (C11 lemmas), phases by the inverse of the lattice (C34 lemmas), residues of the momenta modulo the number of cells | Findings: eigenvalues of a collection converted to another sample basis are no eigenvalues (C112_eigenpairs_refuted); too few offsets silently give fewer axes (C112_offsets). np.linalg.inv enters as an inverse of the lattice. |
| C113 | Localisation of wavepackets with Wannier90: the input files and what is done with the result | WannierWin | Reciprocal vectors from the cell of the file, phases per cell from the fractions (C72 lemmas), residues of momenta for the grid, overlaps and projections by C81, matrices by C82 | Wannier90 itself enters as two functions from the files written to the texts it leaves, assumed to list neighbours of the samples and one num_wann x num_wann matrix per sample. The text of numbers in the files is not modelled. Findings: truncated sample bases (C113_truncated_grid_refuted), vectors with one component (C113_flat_cell), a number of projections other than the number of bands (C113_other_number_of_projections). |
| C114 | Noise operators built for a Hamiltonian, and detailed balance | NoiseBuild | Conversion of a commutator through an orthonormal basis; matrix elements between eigenvectors; the kernel of C77; a third-order bound on exp by monotonicity; two wells as the counterexample | Eigenstates are vectors with H u = E u, not required to be normalised. Finding: the correction is of first order in 1/(kT), so detailed balance holds to third order only and fails outright at an energy difference of 4kT (C114_missing_transition_refuted). |
| C115 | Locations of bands taken from wavepackets | BandsBasis | The points of C102 of every wavepacket of the list; mirror images in a square cell by uniqueness of representatives; a delta function as the misplaced state | Finding: locations are in grid points, the simulation and the documentation take them as fractions of the cell (C115_misplaced_refuted). |
| C116 | Sites of (111) and (100) surfaces | Sites | Coordinates of rotated points in the lattice vectors; integers among thirds and halves; distances with sqrt 3 | Finding: with a number of points that is no multiple of three the HCP and top sites are rounded and not symmetric (C116_rounded_111). |
| C117 | What plotted lines and meshes show | Plots | Slices of vectors converted to position or momentum; projections on two orthonormal directions keep distances; fftshift as a permutation; unwrapped phases move by at most pi | Findings: the default index of plot_data_1d_k is taken from unconverted data (C117_default_line_in_momentum_refuted); the phase is not continuous at the repeated point (C117_phase_at_end_refuted); an axis of one point raises. |
| C118 | Effective masses of bands | EffectiveMass | The position component of samples in momentum as a sum of phases; second differences of the energies of a free particle on a circle vanish but for kinks, which gives the sum in closed form | Findings: an axis counted from the end uses the mean energy (C118_negative_axis); the masses from the Wannier Hamiltonian carry a further factor, the root of the number of samples (C118_localized_one_band), and with several bands read elements between bands (C118_localized_two_bands_refuted). The Wannier states built on the way, whose values are not used, are left out. |
| C119 | Lines of lists of values | ValuePlots | Reindexing of the transform of rolled data by a bijection of residues; the phases add to those of the times; linearity for split lists | Findings: for a time basis with a step and an offset the phases of the spectrum are off (C119_frequency_phase_refuted); the line of averages of imaginary parts is zero (C119_average_imaginary_refuted). Phases are unwrapped over all lists as one, so an average of phases depends on the order of the lists. Scales, labels and colours are not modelled. |
| C120 | Occupations of eigenstates and bands | Occupation | Sums over the places of a sort are sums over all; sums over eigenstates by completeness; sums over axes by the theorems of C45 | Finding: plot_eigenstate_occupations changes the eigenvalues of its argument in place (C120_caller_unchanged_refuted). Eigenvalues are real; the diagonalisation is given as eigenvalues and a unitary matrix; states and Hamiltonian have the same basis. Labels and titles are not modelled. |
| C121 | Potential elements with an oscillator subtracted | ShoSubtracted | The transform of the potential left over has its Fourier coefficients, so the elements are those of C71; opposite points are exchanged in the sum for the symmetric case | Finding: for an axis along -z the oscillator subtracted is centred elsewhere than the oscillator states (C121_downward_axis_refuted). The diagonal energies and the slow version need the oscillator basis, whose construction raises; only the elements the compiled function returns are stated. At most 21 oscillator states, beyond which the factorial of the compiled code overflows. |
| C122 | Plots of noise kernels | KernelPlots | A sorted prefix has the smallest sum of its length; entries of unitary eigenvectors are at most 1, so what is left out is bounded by the sum of its eigenvalues | Findings: a truncated sample is drawn with the wrong operators (C122_sample_truncation_refuted); a truncation of the eigenvalue plot leaves out the smallest t+1 and keeps none when it is the number of eigenvalues (C122_eigenvalues_kept_refuted). Labels, scales and figures are not modelled; entries divided by zero are None. |
| C123 | Potentials and states along paths | PathPlots | Indices read with wrapping, or with python indexing, are the repeats of the points of the path; the inserted coordinate is a first argmin by induction | Finding: get_minimum_path looks for the minimum of the data in the potential's own basis, but the value is drawn in position (C123_minimum_in_momentum_refuted). Potentials along a single axis, whose paths have no rows, are left out of get_minimum_path. |
| C124 | Points of lattices drawn in a plane | StackedPlots | The projections are a Gram-Schmidt frame, shown unique; the entries of a slice are in bijection with the indices that agree with it, by induction over the shape | Findings: planes of momenta use the index along the wrong axis (C124_momentum_plane_refuted), a grid index is drawn as if it were a position (C124_position_at_index_refuted), and the points of the zone need not lie in the first one (C124_first_zone_refuted). Negative axes and indices and slices as indices are left out. |
| C125 | Energies of bands drawn against momentum, position and band | EnergyPlots | The basis of the samples is the momentum basis of a lattice scaled by the number of samples, so C117 applies to it; its inverse is the scaled inverse; the free line is an integral by antiderivative (Coquelicot) | Finding: the default index of the sample frequencies is empty whatever the number of axes, so all samples are drawn (C125_default_plane_refuted). Samples are in a basis with as many states as points; negative bands and indices are left out. |
| C126 | The squared scale of axes | SquaredScale | Real analysis of squares and square roots | Finding: ticks of views that reach below zero (C126_ticks_outside_refuted, C126_ticks_symmetric). |
| C127 | Potentials read from JSON files | LoadPotential | np.array of nested lists, by induction over the shape; entries of a concatenation of blocks of one size | Finding: heights are not compared with the points (C127_heights_refuted). Values other than numbers and lists, and missing keys, are left out. |
| C128 | Slices along one axis | SliceAxis | The expansion of an ellipsis by counting entries | numpy's reading of an index is part of the model. |
| C129 | Bloch waves are the states of the supercell | Hamiltonian, Wavepacket, Localize, BlochEnergies (no new definitions) | Components of a Bloch wave in the momentum basis of the supercell; frequencies of the supercell do not wrap away from the edge; spectral sum over an orthonormal set of eigenvectors | The statement is the full characterisation: with a component at the edge frequency of an even axis the energy differs (C129_even_points_refuted). Uses eigh_ok for numpy.linalg.eigh / scipy.linalg.eigh. |
| C130 | The Wannier Hamiltonian is the Hamiltonian of the supercell | Hamiltonian, Wavepacket, Localize, WannierBasis (no new definitions) | Wannier states are sums of Bloch states; spectral sum of C129; plane waves of samples are orthogonal over the cells; a complete orthonormal set of eigenvectors has all eigenvalues | For an odd number of points along every axis (see C129 for even numbers); in the statement the two sides of the element are exchanged as the code does (C64). Uses eigh_ok and svd_ok for the numerical routines. |
| C131 | Evolution in the supercell through Bloch states | Dynamics, BlochBasis, Hamiltonian, Wavepacket (no new definitions) | hermiticity: an eigenvector has components only along computed eigenvectors of the same energy; Parseval; C129; completeness of as many orthonormal states as points | For an odd number of points along every axis (see C129 for even numbers). Uses eigh_ok for the two diagonalisations. |
| C132 | Conserved quantities of the Schrodinger evolution | Dynamics, Operator (no new definitions) | product rule for the components of C39, hermiticity moves the Hamiltonian to the right; a function with zero derivative is constant; phases have modulus one (C131) | Uses eigh_ok for the diagonalisation. The derivative is that of the real and imaginary parts, with Coquelicot. |
| C133 | Energies in a smaller basis bound those in a larger one | EigenBasis, Operator (no new definitions), SpecInterlace | min-max argument: m - 1 linear conditions have a common non-zero solution among m components (Spectral.kernel_exists), whose form lies between the eigenvalues of both matrices; the overlaps of nested orthonormal bases have orthonormal columns and compose | Uses eigh_ok for the eigensolver (such a function exists, Spectral3.eigh_exists). |
| C134 | Energies depend on the potential monotonically and stably | Hamiltonian, EigenBasis (no new definitions) | the same min-max argument on the energies of states (C33): they are ordered for every state when potentials and masses are | Uses eigh_ok for the eigensolver, as C133. |
| C135 | Energies at opposite Bloch fractions | Hamiltonian, EigenBasis (no new definitions), SpecSymmetry | the matrix at the opposite fraction is the conjugate of the first with rows and columns exchanged between opposite waves; conjugation and relabelling keep the spectrum (two-sided C133); the even case by an explicit two by two matrix | Equality for odd numbers of plane waves; C135_even_refuted shows that it fails for even ones. Uses eigh_ok for the eigensolver, as C133. |
| C136 | Moving a potential does not change the energies | Hamiltonian, EigenBasis (no new definitions), SpecSymmetry | the matrix of the moved potential differs from the first by one phase for every plane wave | Uses eigh_ok for the eigensolver, as C133. |
| C137 | The sum of the energies, and energies of shifted and scaled potentials | Hamiltonian, EigenBasis (no new definitions), SpecSymmetry | the sum of the diagonal does not depend on the basis, and a plane wave has the same weight at every grid point; shifts by C134 in both directions; scaling of matrix and spectrum | Uses eigh_ok for the eigensolver, as C133. |
| C138 | Products and sums of operators and lists of operators in different bases | Operator (no new definitions), SpecBasis | conversion with one basis kept is a product with overlaps on one side (C14); entries of the stored arrays; the reshape fails when the sizes differ | Sums and differences for data stored flat, the shape the library produces. |
| C139 | Energies of potentials that are sums over perpendicular directions | Hamiltonian (no new definitions), SpecHamiltonian, SpecLocalize | states of joined lists of axes are products, wave vectors split (uniqueness of wave vectors), hence elements split; product eigenvectors, sorting of their eigenvalues and uniqueness of ascending spectra | Energies as spectra of the returned operators; the eigensolver returns them (C104). Evolution for real potentials. |
| C140 | A free particle in plane waves | Hamiltonian, Dynamics (no new definitions), SpecHamiltonian, SpecSymmetry | elements between plane waves and orthonormality give a diagonal matrix; uniqueness of the ascending spectrum; components along eigenvectors (C131) | Constant on the points of the grid; the two numerical assertions of the solver are not modelled (C39). |
| C141 | Band energies are continuous in the Bloch fraction | Hamiltonian, EigenBasis (no new definitions), SpecHamiltonian | quadratic form of the Hamiltonian (C33), Parseval on the plane waves of the grid, comparison of ascending spectra (C134), bound of wave vectors by the fractions | Bound by kinetic energies, and a local Lipschitz bound. |
| C142 | Energies bound expectation values, and mixtures of potentials | Operator.calculate_expectation, EigenBasis (no new definitions), SpecLocalize | diagonal form in the eigenvectors; the form is linear in the potential | The state is given in the basis of the operator. |
| C143 | Evolution respects time reversal and translations of the grid | Hamiltonian, Dynamics (no new definitions), SpecSeed, SpecSymmetry | entries of the reversed and the moved Hamiltonian (C135, C136), components along the eigenvectors (C131), injectivity of amplitudes | Amplitudes are compared on the points of the grid. C143_even_refuted is the counterexample for two plane waves. |
| C144 | Evolution in scaled and shifted potentials, and overlaps at opposite times | Hamiltonian, Dynamics (no new definitions), SpecHamiltonian | elements of the Hamiltonian (C33), components along the eigenvectors (C131), completeness of the eigenvectors | The basis has at least one state. |

## Disagreements between code and documentation (findings)

### Proved about the model

Each line names the theorem that exhibits it.

* Converting a vector to the very same basis object skips the projection, so for a
  non-orthonormal explicit basis it differs from converting to an equal copy
  (`C09_self_conversion_differs_refuted`); for real data it reinterprets the
  memory as complex numbers (`C48_real_vector_same_object_refuted`).
* The isotropic kernel of a diagonal kernel is read along the wrong direction and
  comes back reversed (`C22_round_trip_reverses`).
* Noise operators of kernels on rectangular bases do not rebuild the kernel
  (`C23_rectangular_refuted`).
* `get_periodic_noise_operators_real_isotropic_fft` returns different numbers of
  operators and eigenvalues (`C25_real_fft_counts`, `C25_real_fft_not_rebuilt`).
* `truncate_noise_operator_list` sorts by signed eigenvalue and can drop the
  strongest operator (`C27_full_truncation_by_modulus_refuted`).
* Wavepackets whose list basis is of position type: unfurling mixes the samples
  (`C28_position_list_basis_refuted`), and for odd lengths every sample gets
  fraction zero (`C29_position_list_all_zero`).
* The localised Hamiltonian is the transpose of the matrix of H between the
  localised states, and the identity operator takes its row basis from the
  samples (`C30_hamiltonian_elements_refuted`, `C30_identity_operator_refuted`).
* Projection localisation with more projections than bands returns states that
  are not orthonormal (`C31_too_many_projections`).
* The continuous potential is complex between grid points for even axes
  (`C34_continuous_potential_even_refuted`).
* `undo_truncate_potential` is wrong for n >= 2
  (`C35_undo_truncation_higher_powers`).
* `get_tunnelling_m_matrix` zeroes the diagonal of its argument (`C37`), and the
  default number of bands only works for one band (`C38_number_of_bands`).
* The Fey formula for [110] divides by zero on a set of momenta
  (`C40_fey_110_singular`).
* The banded operator compares real parts, so an element whose modulus is above
  the threshold can be lost (`C41_modulus_refuted`).
* Caches: a process killed while saving leaves a file that makes every later call
  raise (`C42_killed_while_saving`); `None` is never cached
  (`C42_none_is_never_cached`); two concurrent writers, or two functions sharing a
  path, can make a call return a wrong value (`C42_two_writers_refuted`,
  `C42_shared_path_refuted`); `npy_cached` without the `.npy` suffix never hits
  (`C43_other_suffix`).
* Brillouin zone folding can skip a zone, has fixed points outside the first zone
  of skew lattices, and raises unless there are exactly three axes
  (`C44_one_zone_at_a_time_refuted`, `C44_fixed_points_in_first_zone_refuted`,
  `C44_raises_outside_three_dimensions`).
* `sum_probabilities` without axes and `average_eigenvalues` without or with
  negative axes (`C45_sum_probabilities_default_axes`,
  `C53_average_default_axes`, `C53_negative_axis_keeps_basis`).
* Displacements on skew lattices are not periodic and
  `get_displacements_matrix_x` is not a displacement matrix (`C46`, `C47`).
* `BasisUtil.__into_transformed__` is not the transformation of its basis
  (`C50_util_into_transformed_refuted`).
* Adding a product of operators to a flat operator raises
  (`C52_product_plus_flat_raises`); `as_flat_operator` returns a basis of the
  wrong size (`C54_as_flat_operator_size`).
* `truncate_diagonal_noise_kernel` collapses the kernel to one entry
  (`C55_truncate_diagonal_kernel_has_one_entry`).
* Wannier states of truncated bases overlap (`C62_wannier_truncated_refuted`).
* `as_wavepacket_list` loses the first element of a generator and the resampled
  list is labelled with a position-type basis (`C63_iterator_drops_first`,
  `C63_to_shape_label_refuted`).
* `get_full_wannier_hamiltonian` is the transpose of the matrix of H, with rows
  ordered differently from the states (`C64_full_hamiltonian_transposed_refuted`,
  `C64_full_hamiltonian_order_refuted`).
* Collapse operators of a rate matrix produce squared and transposed rates
  (`C67_collapse_rates_refuted`).
* Compiled oscillator states overflow at level 21 and compiled Hermite
  coefficients at degree 26 (`C69_compiled_states_normalised_refuted`,
  `C69_compiled_hermite_values_refuted`).
* `calculate_x_distances` is zero at minus the origin (`C70_zero_at_origin_refuted`).
* The compiled off-diagonal energies conjugate the second z state instead of the
  first; for complex z states the explicit z Hamiltonian does not belong to the
  basis it is returned with (`C71_complex_states_refuted`,
  `C72_complex_states_refuted`).
* `interpolate_points_fftn` without `axes` gives the sizes to the last axes in
  reverse, contrary to its docstring (`C74_default_order_refuted`).
* Real Fourier interpolation does not pass through its own values when the last
  axis is even and grows (`C75_even_axis_refuted`; the tests avoid this case).
* Taylor expanded noise operators: integer powers overflow 64 bits from the
  eleventh term on (`C57_eleven_terms_refuted`); the lorentzian operators have two
  eigenvalues more than operators (`C57_lorentzian_mismatch`); the linear gaussian
  operators do not have a gaussian kernel (`C57_linear_gaussian_refuted`); stacked
  over axes the amplitude is raised to the number of axes
  (`C57_stacked_self_correlation`).
* Fitting operators to an isotropic kernel that is not symmetric averages it with
  its mirror image (`C58_asymmetric_refuted`).
* Noise sampled from operators with negative eigenvalues has the kernel of the
  moduli as covariance (`C76_negative_eigenvalue_refuted`).
* Kernels built from a correlation function are functions of the distance only if the
  lattice vectors point along the coordinate axes (`C77_rotated_refuted`).
* `build_isotropic_kernel_from_function` and `get_gaussian_axis_noise_kernel` raise for
  every basis with more than one point (`C77_unstacked_raises`, `C77_axis_kernel_raises`).
* `get_gaussian_noise_kernel` treats a stacked basis as a single axis; with two axes the
  kernel is not Hermitian (`C77_gaussian_two_axes_refuted`).
* The smallest correlation of the effective gaussian kernel is A^2 exp(-f^2/8), not the
  documented A^2 exp(-f^2/2) (`C78_documented_minimum_refuted`).
* For the same friction the effective lorentzian kernel falls off twice as fast as the
  gaussian one (`C78_lorentzian_kernel`).
* With its default parameters the effective gaussian noise on four points has a negative
  eigenvalue (`C79_positive_refuted`).
* `convert_kernel_to_basis` returns another kernel when the row and column bases differ in
  size, and `convert_diagonal_kernel_to_basis` raises (`C80_rectangular_refuted`,
  `C80_diagonal_rectangular_raises`).
* `convert_isotropic_kernel_to_basis` converts the kernel as if it were a state vector
  (`C80_isotropic_refuted`).
* `x0x1_symmetry_op` on axes of different lengths merges samples without an error
  (`C83_exchange_merges`), and the representatives of equivalent samples differ with
  several operations (`C83_representative_unique_refuted`).  Only `_build_dmn_file`
  uses them, and it raises `NotImplementedError`.
* A stacked shift of overlaps is rolled in the flattened grid, so only the first axis is
  translated periodically (`C84_shift_other_axis_refuted`).
* `convert_overlap_to_momentum_basis` passes two lengths and three axes to `np.fft.ifftn`
  and always raises (`C84_momentum_conversion_raises`).
* `get_overlap_momentum_interpolator_k_fractions` divides every axis by the length of the
  first (`C85_fractions_unequal_refuted`).
* `get_angle_averaged_diagonal_overlap_function` samples both 0 and 2 pi and so counts one
  direction twice (`C85_angle_average`, `C85_angle_average_biased`).
* `get_state_along_axis` orders the data by the axes asked for and the basis by the list, so
  axes out of order give states under wrong indices (`C86_along_axes_order_refuted`).
* `as_state_vector_list` gives every state the basis of the first one (`C86_collect`).
* `calculate_inner_products_eigenvalues` multiplies coefficients in different bases
  (`C87_eigenvalue_products_ignore_bases_refuted`).
* `calculate_inner_products_elementwise` pairs a single state with every state of the other
  list, and then carries the basis of the first list (`C87_elementwise_lengths`).
* `get_single_point_state_vectors` uses the number of bands as the distance between the
  points: it raises when that is below the square root of the number of basis states and
  leaves zero states when it is above (`C88_single_points_raise_refuted`,
  `C88_single_points_orthonormal_refuted`).
* `get_most_localized_state_vectors_from_probability` multiplies the fractions by slot numbers
  rather than signed frequencies, which is a translation only for points of the grid (not
  proved).
* `calculate_real_gamma_integral` documents the factor 4 m k^3 / (hbar (2 pi)^3), the code has
  hbar cubed; and the potential and the overlap are evaluated at k sin(phi / 2), half of the
  change of the wavevector 2 k sin(phi / 2) (`C89_potential_integral`).
* `EvenlySpacedTimeBasis.fundamental_times` includes the end of the span while `times` is
  a multiple of span / fundamental_n, so `times` is not a subset of `fundamental_times`
  (`C90_fundamental_times`); `ExplicitTimeBasis.delta_t` is the spacing and not the span
  (`C90_explicit_span`).
* `solve_stochastic_schrodinger_equation_localized` combines the two times of one realisation
  (`get_state_along_axis(axes=(1,), idx=(1,))` keeps the time axis) instead of the realisations
  at the second time; a round lasts half the spacing; the state at time zero is not the
  initial one (`C91_round`, `C91_trajectories`).
* `_select_random_localized_state` returns a state whose squared norm is its probability, so
  the mean over the choices is not the density matrix (`C91_choice`,
  `C91_normalised_refuted`).
* `_calculate_total_offsset_multiplications_real` computes the sum of A_(i+N) B_i instead of the
  documented A_i B_(i+N) (`C92_documented_offsets_refuted`), so `get_average_isf` is the
  conjugate of the formula in its comment (`C92_commented_isf_refuted`); the "RMS displacement"
  is a mean square (`C92_displacements`).
* `get_average_normalized_drift` inverts k twice and divides only one of its two sums by the
  number of times, so that a particle at rest drifts
  (`C92_average_normalized_drift_at_rest`); `get_normalized_average_drift` has the opposite
  sign (`C92_normalized_average_drift_uniform`).
* `_get_x_operator`, `_get_k_operator` and `_get_average_x_periodic` multiply arrays over states
  or points by a lattice vector with one entry per dimension: with more than one dimension the
  operators raise (`C94_operators_raise`), and the periodic averages raise or mix states with
  components (`C93_average_position_more_dimensions`).
* `_get_x_spread` normalises the states it is given in place (`C94_spread`).
* `_get_average_k` gives real wavefunctions a mean momentum on grids with an even number of
  points (`C94_real_momentum`, `C94_real_at_rest_refuted`).
* `get_x_coordinates_in_axes` reshapes the points of the fundamental grid to the shape of the
  basis: in a basis with fewer states than points its rows are not the axes
  (`C95_coordinates_truncated_refuted`).
* `calculate_cumulative_k_distances_along_path` takes norms over the points of the path instead of
  the components: the result has one entry more than there are axes, whatever the path
  (`C96_momentum_length`).
* The docstring of `get_twice_average_nx` says that 1 and N - 1 give zero, and N // 2 twice gives
  N // 2: the first fails for N = 3 and 4, and the second for every N > 1 (`C97_documented_refuted`).
* `BlochBasis.__into_fundamental__` reshapes with `shape` where `__from_fundamental__` uses
  `fundamental_shape`: with a truncated state basis it always raises
  (`C98_into_raises_when_truncated`).
* `get_all_eigenstates` zips (strictly) the flattened coefficients with the eigenvalues, so it
  raises for every cell with more than one point, and so do `localize_position_operator`,
  `localize_position_operator_many_band` and `..._individual`
  (`C99_all_eigenstates_raises`, `C99_position_localisation_raises`).
* `get_tight_binding_state` takes the index arrays of the pair (list basis, state basis) for
  those of the axes of the state: points are lost when there are fewer samples than points
  along the first axis (`C100_missing_points`, `C100_whole_cell_for_every_sampling_refuted`),
  and three axes raise (`C100_three_axes_raise`).
* `get_exponential_state` and `localize_exponential_decay_projection` index the pair (list
  basis, state basis) with a third axis and raise for every wavepacket
  (`C101_exponential_raises`).  `get_gaussian_states` makes the same confusion: it exists for two axes only
  (`C101_gaussian_raises`), its widths and the periods of its origin are the numbers of samples
  and of states (`C101_gaussian`), so it need not be centred where asked
  (`C101_gaussian_centred_at_origin_refuted`).
* `localize_tightly_bound_wavepacket_max_point` indexes a one-dimensional array with two slices
  and raises on every input (`C102_max_point_raises`).  The two point variant multiplies the data
  without reshaping them: flat data become an outer product
  (`C102_two_point_max_flat_refuted`).  Its points are wrapped by the number of states instead of
  the number of points (`C102_two_points_few_states_refuted`).
* In `interpolate_state_vector_momentum` the assignment expression captures a comparison, so
  every named axis is given `shape[1]` points: the requested shape is not obtained and the values
  are scaled (`C103_requested_shape_refuted`), and a single axis raises
  (`C103_single_axis_raises`).
* `ExplicitStackedBasisWithLength.shape` is the shape of the basis its vectors are given in: its
  product is the number of states only when all states are kept (`C104_stacked_shape`).
* `interpolate_points_along_axis_spline` writes to `points.swapaxes(axis, -1).reshape(-1, n)`, a
  copy for most axes other than the last one; then the uninitialised array of `np.empty` is
  returned (`C105_other_axes`, `C105_first_axis_refuted`).
* `interpolate_uneven_potential` takes values at n points including both ends but returns a basis
  of n points over the same height, whose spacing is smaller by (n - 1) / n
  (`C105_uneven_spacing_refuted`).
* `density_matrix_as_probability` keeps the pair of bases of the density matrix, so
  `sum_probability` raises for two or more states and `calculate_isf_at_times` always does; both
  equilibrium averages, `get_jump_matrix_from_a_matrix` and `resample_tunnelling_a_matrix` always
  raise (`C106_probability_of_a_density_matrix`, `C106_isf_at_times_raises`,
  `C106_equilibrium_isf_raises`, `C106_jump_matrix_raises`).
* `get_rate_decomposition` returns the n x n eigenvectors in the field `eigenvalues`; the
  eigenvalues are lost (`C106_rate_decomposition`).
* The fits of scattering functions compute `sigma` but never hand it to `curve_fit`; with the
  default end the last time is left out; the names fast and slow do not order the rates
  (`C107_window_and_error_bars`, `C107_fast_and_slow_refuted`, `C107_extraction_exists`).
* `solve_stochastic_schrodinger_equation` divides collapse operators by hbar, the Rust solvers by
  its root (`C108_qutip_rates_refuted`). `solve_stochastic_schrodinger_equation_rust` passes `times.dt`
  together with `step=times.step`, the banded one `fundamental_dt` (`C108_dense_times`). The banded
  solver raises for its default of no collapse operators (`C108_banded_raises`).
  `get_collapse_operators_from_function` allocates arrays of the shape of the lattice
  (`C108_collapse_from_function`).
* `basis_as_n_point_basis` evaluates `FundamentalPositionBasis[_N1Inv, int]`, but `_N1Inv` is only
  defined under `TYPE_CHECKING`: NameError. So `basis_as_single_point_basis`,
  `stacked_basis_as_fundamental_with_shape` and `get_overlap_momentum_interpolator_flat` raise for
  every argument (`C110_with_shape_raises`, `C110_single_points`, `C85_flat_interpolator_raises`).
  A scan of all names in the package found no other name of this kind.
* `convert_probability_vector_to_basis` converts probabilities with the transformation of
  amplitudes. Between bases of points this is harmless; from momenta the total becomes `sqrt(N)`
  times the first entry and entries become negative (`C111_total_and_sign_refuted`).
* `get_probability_along_axis` slices the two-dimensional data as if they had one axis per axis of
  the list, so it only works for lists along one axis (`C111_along_one_axis`, `C111_along_raises`).
* `convert_wavepacket_with_eigenvalues_to_basis` converts the eigenvalues along the samples like
  amplitudes, so for a sample basis that mixes samples they are not the energies of anything
  (`C112_eigenpairs_refuted`).
* `get_fundamental_unfurled_sample_basis_momentum` makes one axis per offset: a short tuple of
  offsets gives a basis with fewer axes (`C112_offsets`).
* `_build_k_points_block` announces the number of samples as `mp_grid`, also for truncated sample
  bases, whose samples are not on that grid (`C113_truncated_grid_refuted`); the docstring asks for
  a fundamental basis but nothing checks it.
* `_build_real_lattice_block` broadcasts vectors with one component into a cell without volume
  (`C113_flat_cell`).
* `localize_wavepacket_wannier90` is documented to give one state per projection, but `num_wann` is
  always the number of bands, so any other number of projections fails after Wannier90 has run
  (`C113_other_number_of_projections`).
* The temperature correction of noise operators is of first order in 1/(kT): rates obey detailed
  balance up to third order only, and between states 4kT apart there is no upward transition
  (`C114_missing_transition_refuted`); beyond that the upward rate grows with the energy.
* `get_isotropic_kernel_from_operators` drops all elements off the diagonal without a check
  (`C22_isotropic_of_operators`).
* `TunnellingSimulationBandsBasis.from_wavepackets` gives locations in numbers of grid points; the
  simulation multiplies them by the cell vectors as if they were fractions
  (`C115_misplaced_refuted`).
* The HCP and top sites of `get_111_comparison_points_x2` are rounded down, and not symmetric, when
  the number of points is no multiple of three (`C116_rounded_111`).
* `plot_data_1d_k` takes its default index from the data before the conversion to momentum
  (`C117_default_line_in_momentum_refuted`); `plot_data_2d_k` takes it after.
* The point that closes a line of phases repeats the first phase instead of continuing it
  (`C117_phase_at_end_refuted`); a line along an axis of one point raises IndexError
  (`C117_single_point_raises`).
* Read, not modelled: `animate_data_through_surface_x` indexes `data.shape[2]` of flat data, which
  raises; animations of lists choose slice and colour limits frame by frame.
* Effective masses: an axis counted from the end is never equal to the index that is compared, so
  the mean energy is used (`C118_negative_axis`).  `get_wavepacket_localized_effective_mass`
  normalises elements between Wannier states, which carry 1/n, as if they carried 1/sqrt(n)
  (`C118_localized_one_band`), and reads data in the order (sample, band) as (band, sample)
  (`C118_localized_two_bands_refuted`).  The masses agree with those of a free particle
  (`C118_free_particle`) but not with the curvature of bands (`C118_hopping_chain`).
* Spectra of lists of values: the data are rolled by the offset in units of the stored times, the
  times are shifted by the offset in units of the fundamental times, so for a step other than one
  the phases are wrong (`C119_frequency_phase_refuted`).  The measure is applied a second time to
  averages: the line of averaged imaginary parts is zero while its shaded band is not
  (`C119_average_imaginary_refuted`).
* `plot_eigenstate_occupations` subtracts the lowest energy from the eigenvalues in place: the
  argument is changed by drawing it (`C120_caller_unchanged_refuted`).  The title of
  `plot_average_probability_per_band` gives the number of keys of a dictionary, two, as the number
  of repeats (titles are not modelled).
* `sho_subtracted_basis` measures the oscillator it subtracts along the last axis, but the
  oscillator states are evaluated at `dz * i + x_origin[2]`: for an axis along -z the two have
  different centres (`C121_downward_axis_refuted`).
* `plot_diagonal_noise_operators_single_sample` truncates the operators but then takes the first ones
  of the list that is not truncated (`C122_sample_truncation_refuted`); without an axis to draw on
  `ax.set_ylabel` raises (not modelled).
* `plot_diagonal_noise_operators_eigenvalues` slices with `[:truncation:-1]`, which leaves out the
  `truncation + 1` smallest instead of keeping `truncation` (`C122_eigenvalues_kept_refuted`).
* `get_minimum_path` takes the minimum of the potential's data without converting them, while
  `plot_potential_along_path` converts to position: for a potential in a momentum basis the value
  drawn is not the smallest (`C123_minimum_in_momentum_refuted`).
* `plot_fundamental_k_in_plane_projected_2d` slices an array with a row per component without
  moving the axes by one (and with three rows whatever the number of axes): the index is used
  along another axis, or along the components (`C124_momentum_plane_refuted`); the version for
  positions is right.
* `plot_fundamental_x_at_index_projected_2d` projects integer indices as if they were positions
  (`C124_position_at_index_refuted`).
* `plot_brillouin_zone_points_projected_2d` decrements the zone twice, which does not reach the
  first zone in a skew lattice (`C124_first_zone_refuted`).
* `plot_wavepacket_sample_frequencies` takes the number of axes from the pair of the bases of the
  list and of the states, which is always two: the default index is empty, and for three axes all
  samples are drawn instead of the plane at zero (`C125_default_plane_refuted`).
* `SquaredLocator` places ticks at square roots, so in a view that reaches below zero they can lie
  outside the view (`C126_ticks_outside_refuted`) and in a symmetric view they are all at one
  place (`C126_ticks_symmetric`).
* `load_uneven_potential_json` does not compare the number of heights with the points
  (`C127_heights_refuted`).
* With an even number n of points along an axis the Hamiltonian of the cell uses the frequency
  - n / 2 + fraction also for negative fractions, which the supercell wraps to the other end. The
  eigenvalue stored in a wavepacket is then not the energy of its Bloch state in the supercell
  (`C129_even_points_refuted`: 9 pi^2 instead of pi^2 for two points and two samples).
* With an even number of plane waves along an axis the set of waves contains one without its
  opposite, so the energies of a real potential at opposite Bloch fractions differ
  (`C135_even_refuted`); with odd numbers they agree (`C135_opposite_fractions`).
* `matmul_list_operator` and `matmul_operator_diagonal_list` reshape the converted operator with the
  shape it had before the conversion and raise when the number of states differs
  (`C138_list_operator`, `C138_operator_diagonal_list`); the mirrored functions do not
  (`C138_operator_list`, `C138_diagonal_list_operator`).

### Seen while reading, not modelled

* `sho_subtracted_basis.total_surface_hamiltonian` passes a keyword-only argument
  positionally, so it always raises `TypeError`.
* `incoherent_propagation`: `get_jump_matrix_from_a_matrix`, resampling and the
  reduced-band variants index the third entry of a pair basis and always raise;
  `get_rate_decomposition` returns the eigenvectors in the place of the
  eigenvalues.
* The maximum-point variants of tight-binding localisation raise `IndexError` or
  return a wrong shape.
* `convert_wavepacket_with_eigenvalues_to_basis` also converts the eigenvalues as
  if they were components over the list basis.
* `cumulative_k` takes norms over the wrong axis;
  `get_state_along_axis` uses the axis order of the storage.
* `EvenlySpacedBlockFractionBasis.ndim` returns the number of points.
* `interpolate_points_along_axis_spline` writes through a reshape of a swapped
  array, which is a copy unless the axis is the last one, so it returns
  uninitialised values for other axes.
* `stacked_basis_as_fundamental_with_shape` passes the lattice vectors in the place
  of the basis.

## Mutation tests

`seeded/LOG.jsonl` has one line per seeded bug: the definition edited, the edit,
the claim it breaks, the theorems whose proofs then fail, and the theorems that
were tightened because nothing failed.

## Note

While the properties were being collected, a `python3` process was once started
with `/repo` as working directory and left a `__pycache__` directory, which was
deleted; no file of /repo was changed.

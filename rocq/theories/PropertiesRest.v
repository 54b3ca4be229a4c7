(** Kernels of diagonal operators on stacked bases (C22), the effective Gaussian kernel as a function
    of the displacement (C78), overlaps in the position basis (C84), fundamental forms of one axis
    (C110) and Hamiltonians declared in fundamental bases (C72). *)
From Coq Require Import Reals Lia Lra.
From Verif Require Import ZLib Csum DFT NumPy Spec SpecReal Basis SpecBasis Operator SpecOperator Kernel SpecKernel KernelFacts Correlation SpecCorrelation
  CorrelationProofs3 Overlap Wavepacket SpecWavepacket Localize SpecLocalize VolumeBasis SpecVolumeBasis VolumeBasisFacts Generator SpecGenerator GeneratorFacts GeneratorFacts2
  RestProofs.
Local Open Scope R_scope.
Local Open Scope C_scope.

(** ** C22 *)

Example C22_operators_case : diagonal_noise_wf three_operators /\ (0 < noise_count three_operators)%nat /\
  bsize (lrow (nops three_operators)) = nprod [bsize (lrow (nops three_operators))] /\ (0 < nprod [bsize (lrow (nops three_operators))])%nat.
Proof. split; [exact three_operators_wf|]. cbn. lia. Qed.

(** The isotropic kernel of diagonal operators on a stacked basis is the first column of their
    kernel; with the check it is returned only if the kernel depends on the displacement alone. *)
Theorem C22_isotropic_from_operators_stacked :
  forall o shape, diagonal_noise_wf o -> (0 < noise_count o)%nat -> bsize (lrow (nops o)) = nprod shape -> (0 < nprod shape)%nat ->
  exists k, get_isotropic_kernel_from_diagonal_operators_stacked false shape o = Some k /\ ashape k = [nprod shape] /\
    (forall i, (i < nprod shape)%nat -> aflat k i = diagonal_kernel_of o i 0) /\
    forall k', get_isotropic_kernel_from_diagonal_operators_stacked true shape o = Some k' <->
      k' = k /\ forall x y d, in_shape x shape -> in_shape y shape -> displacement shape d x y ->
        diagonal_kernel_of o (ravel shape x) (ravel shape y) = diagonal_kernel_of o (ravel shape d) 0.
Proof. exact isotropic_of_operators. Qed.
Print Assumptions C22_isotropic_from_operators_stacked.

(** ** C78 *)

Example C78_isotropic_case : aligned (length [2%nat; 3%nat]) square_delta /\ (0 < length [2%nat; 3%nat])%nat /\
  List.Forall (fun n => (0 < n)%nat) [2%nat; 3%nat] /\ (0 <= 2 * 1 * 3)%R.
Proof. split; [apply square_aligned|]. split; [cbn; lia|]. split; [repeat constructor|lra]. Qed.

(** The effective Gaussian kernel on any number of axes, as a function of the displacement: a
    Gaussian of the distance between nearest images, which falls off as a^2 - (eta kT / hbar^2) r^2. *)
Theorem C78_isotropic_kernel :
  forall kb h delta shape eta t f, aligned (length shape) delta -> (0 < length shape)%nat ->
  List.Forall (fun n => (0 < n)%nat) shape -> (0 <= eta * kb * t)%R -> h <> 0%R -> f <> 0%R ->
  let c := (eta * kb * t / h ^ 2)%R in
  exists k L, get_effective_gaussian_isotropic_noise_kernel kb h delta shape eta t f = Some k /\ ashape k = [nprod shape] /\
    shortest (length shape) delta L /\
    forall x y d, in_shape x shape -> in_shape y shape -> displacement shape d x y ->
      exists r v, periodic_distance delta shape x y r /\ aflat k (ravel shape d) = RtoC v /\
        v = (2 * c * (L / f) ^ 2 * exp (- r ^ 2 / (2 * (L / f) ^ 2)))%R /\
        (Rabs (v - (2 * c * (L / f) ^ 2 - c * r ^ 2)) <= c * r ^ 4 / (4 * (L / f) ^ 2))%R.
Proof. exact effective_isotropic. Qed.
Print Assumptions C78_isotropic_kernel.

(** ** C84 *)

Example C84_position_case : bwf (BTuple [BTrans 2 3; BFund 2]) /\ explicit_orthonormal (BTuple [BTrans 2 3; BFund 2]) /\
  List.Forall (fun b => (0 < bfund b)%nat) [BTrans 2 3; BFund 2] /\
  nprod (ashape {| ashape := [8%nat]; aflat := fun k => RtoC (INR k) |}) = (bsize (BTuple [BTrans 2 3; BFund 2]) * 2)%nat.
Proof. split; [cbn; lia|]. split; [cbn; auto|]. split; [repeat constructor; cbn; lia|reflexivity]. Qed.

(** Every overlap in the position basis holds its values at the points of the grid. *)
Theorem C84_position_conversion :
  forall same, identity_test same -> forall a m data, bwf (BTuple a) -> explicit_orthonormal (BTuple a) ->
  List.Forall (fun b => (0 < bfund b)%nat) a -> nprod (ashape data) = (bsize (BTuple a) * m)%nat ->
  exists out, convert_overlap_to_position_basis same a m data = Some out /\ ashape out = [(bfund (BTuple a) * m)%nat] /\
    forall c x, (c < m)%nat -> (x < bfund (BTuple a))%nat ->
      aflat out (x * m + c)%nat = amplitude (BTuple a) (fun k => aflat data (k * m + c)%nat) x.
Proof. exact overlap_in_positions. Qed.
Print Assumptions C84_position_conversion.

(** ** C110 *)

Example C110_axis_case : bwf (BTrunc 2 3) /\ explicit_orthonormal (BTrunc 2 3).
Proof. cbn. auto with arith. Qed.

(** A state in any basis, converted to the fundamental form of that basis, holds its values; in the
    transformed form it holds the projections on plane waves, which sum to the values. *)
Theorem C110_axis_forms :
  forall same b, identity_test same -> bwf b -> explicit_orthonormal b ->
  let N := bfund b in
  exists G H, convert same b (basis_as_fundamental_basis b) = Some G /\ convert same b (basis_as_fundamental_transformed_basis b) = Some H /\
    (forall v x, (x < N)%nat -> G v x = amplitude b v x) /\
    (forall v j, (j < N)%nat -> H v j = inner_product N (plane_wave N (freq N j)) (G v)) /\
    (forall v x, (x < N)%nat -> G v x = csum (fun j => H v j * plane_wave N (freq N j) x) N).
Proof. exact axis_forms. Qed.
Print Assumptions C110_axis_forms.

(** The forms of a stacked basis are the forms of its axes, with the lattice vectors of the axes. *)
Theorem C110_forms_of_axes :
  forall d axes, in_space d axes ->
  stacked_basis_as_fundamental_position_basis axes = Some (List.map basis_as_fundamental_position_basis axes) /\
  stacked_basis_as_fundamental_momentum_basis axes = Some (List.map basis_as_fundamental_momentum_basis axes) /\
  stacked_basis_as_fundamental_basis axes = fundamental_stacked_basis_from_shape (fundamental_shape axes) /\
  stacked_basis_as_fundamental_transformed_basis axes = fundamental_transformed_stacked_basis_from_shape (fundamental_shape axes) /\
  forall a, List.In a axes ->
    la_delta (basis_as_fundamental_position_basis a) = la_delta a /\ la_delta (basis_as_fundamental_momentum_basis a) = la_delta a /\
    la_basis (basis_as_fundamental_position_basis a) = basis_as_fundamental_basis (la_basis a) /\
    la_basis (basis_as_fundamental_momentum_basis a) = basis_as_fundamental_transformed_basis (la_basis a).
Proof. exact stacked_of_axes. Qed.
Print Assumptions C110_forms_of_axes.

(** ** C72 *)

Example C72_as_fundamental_case : exists eigh H vecs,
  explicit_z_hamiltonian no_test eigh 1 1 1 2 unit3 (fun _ _ => 1%R) spike no_fraction 1 1 flat 1 2 = Some H /\
  orow H = slab_basis 1 1 2 1 1 2 vecs.
Proof. destruct two_real as [eigh [H [vecs [_ [E [O _]]]]]]. exists eigh, H, vecs. split; assumption. Qed.

(** Declared as fundamental, the Hamiltonian has the same numbers, in a basis of the same number of
    states: the same waves on as many points as there are waves, scaled to norm one. *)
Theorem C72_as_fundamental :
  forall same eigh hbar n0 n1 nz inv2 inv1 data frac r0 r1 config mass m H vecs, (0 < r0)%nat -> (0 < r1)%nat ->
  explicit_z_hamiltonian same eigh hbar n0 n1 nz inv2 inv1 data frac r0 r1 config mass m = Some H ->
  orow H = slab_basis n0 n1 nz r0 r1 m vecs ->
  exists H', explicit_z_hamiltonian_as_fundamental same eigh hbar n0 n1 nz inv2 inv1 data frac r0 r1 config mass m = Some H' /\
    odata H' = odata H /\ orow H' = BTuple [BFundT r0; BFundT r1; BExpl m vecs (BFund nz)] /\ ocol H' = orow H' /\
    bsize (orow H') = bsize (orow H) /\
    forall i x0 x1 X0 X1 z, (x0 < r0)%nat -> (x1 < r1)%nat -> (X0 < n0)%nat -> (X1 < n1)%nat -> (z < nz)%nat ->
      (X0 * r0 = x0 * n0)%nat -> (X1 * r1 = x1 * n1)%nat ->
      RtoC (sqrt (INR r0) * sqrt (INR r1)) * bstate (orow H') i (ravel [r0; r1; nz] [x0; x1; z]) =
      RtoC (sqrt (INR n0) * sqrt (INR n1)) * bstate (orow H) i (ravel [n0; n1; nz] [X0; X1; z]).
Proof. exact as_fundamental_spec. Qed.
Print Assumptions C72_as_fundamental.
Theorem C72_as_fundamental_raises :
  forall same eigh hbar n0 n1 nz inv2 inv1 data frac r0 r1 config mass m,
  explicit_z_hamiltonian same eigh hbar n0 n1 nz inv2 inv1 data frac r0 r1 config mass m = None ->
  explicit_z_hamiltonian_as_fundamental same eigh hbar n0 n1 nz inv2 inv1 data frac r0 r1 config mass m = None.
Proof. exact as_fundamental_raises. Qed.
Print Assumptions C72_as_fundamental_raises.

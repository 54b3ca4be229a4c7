(** Bases with lattice vectors (C110). *)
From Coq Require Import Reals.
From Verif Require Import ZLib Csum DFT NumPy Index Basis SpecBasis SpecReal Hamiltonian Paths VolumeBasis SpecVolumeBasis
  SpecWavepacket VolumeBasisProofs VolumeBasisFacts.
Local Open Scope R_scope.
Local Open Scope C_scope.

Example C110_case : in_space 2 ex_skew /\ bwf (stacked ex_skew) /\ explicit_orthonormal (stacked ex_skew) /\
  is_inverse (length ex_skew) (lattice_of ex_skew) ex_skew_inverse.
Proof. exact ex_skew_ok. Qed.

(** stacked_basis_as_fundamental_position_basis and ..._momentum_basis keep the lattice vectors
    and the fundamental shape; either of the two forms of either of them is itself or the other. *)
Theorem C110_fundamental_forms :
  forall d axes, in_space d axes ->
  exists P M, stacked_basis_as_fundamental_position_basis axes = Some P /\ stacked_basis_as_fundamental_momentum_basis axes = Some M /\
    map la_delta P = map la_delta axes /\ map la_delta M = map la_delta axes /\
    stacked P = stacked_basis_as_fundamental_basis axes /\ stacked M = stacked_basis_as_fundamental_transformed_basis axes /\
    map (fun a => bsize (la_basis a)) P = fundamental_shape axes /\ map (fun a => bsize (la_basis a)) M = fundamental_shape axes /\
    fundamental_shape P = fundamental_shape axes /\ fundamental_shape M = fundamental_shape axes /\
    stacked_basis_as_fundamental_position_basis P = Some P /\ stacked_basis_as_fundamental_position_basis M = Some P /\
    stacked_basis_as_fundamental_momentum_basis P = Some M /\ stacked_basis_as_fundamental_momentum_basis M = Some M.
Proof. exact fundamental_forms. Qed.
Print Assumptions C110_fundamental_forms.
Theorem C110_fundamental_forms_raise :
  forall axes, (exists a b, In a axes /\ In b axes /\ length (la_delta a) <> length (la_delta b)) ->
  stacked_basis_as_fundamental_position_basis axes = None /\ stacked_basis_as_fundamental_momentum_basis axes = None.
Proof. exact fundamental_forms_raise. Qed.
Print Assumptions C110_fundamental_forms_raise.
Example C110_raise_case : exists a b, In a [position_axis_of [1] 2; position_axis_of [0; 1] 2] /\
  In b [position_axis_of [1] 2; position_axis_of [0; 1] 2] /\ length (la_delta a) <> length (la_delta b).
Proof. exists (position_axis_of [1] 2), (position_axis_of [0; 1] 2). split; [left; reflexivity|]. split; [right; left; reflexivity|]. discriminate. Qed.

(** On any lattice, skew or not, a state in any basis converts to both forms; the position form
    holds its values, the momentum form its projections on exp(i k.x) / sqrt(N) with the wave
    vectors and points of BasisUtil, and the values are the sum of these waves. *)
Theorem C110_waves :
  forall same d axes inv, identity_test same -> in_space d axes -> bwf (stacked axes) -> explicit_orthonormal (stacked axes) ->
  is_inverse (length axes) (lattice_of axes) inv ->
  let F := fundamental_shape axes in let N := nprod F in
  let wave j x := isqrt N * cis (k_dot_x F (lattice_of axes) inv j x) in
  exists P M G H, stacked_basis_as_fundamental_position_basis axes = Some P /\ stacked_basis_as_fundamental_momentum_basis axes = Some M /\
    convert same (stacked axes) (stacked P) = Some G /\ convert same (stacked axes) (stacked M) = Some H /\
    (forall v x, (x < N)%nat -> G v x = amplitude (stacked axes) v x) /\
    (forall v j, (j < N)%nat -> H v j = inner_product N (wave j) (G v)) /\
    (forall v x, (x < N)%nat -> G v x = csum (fun j => H v j * wave j x) N).
Proof. exact waves. Qed.
Print Assumptions C110_waves.

(** position_basis_from_shape: the given vectors and shape, or an error if their numbers differ;
    by default the points are the fractions of the unit cell. *)
Theorem C110_from_shape :
  forall shape delta,
  (length delta = length shape -> exists axes, position_basis_from_shape shape (Some delta) = Some axes /\
     map la_delta axes = delta /\ stacked axes = BTuple (map BFund shape)) /\
  (length delta <> length shape -> position_basis_from_shape shape (Some delta) = None).
Proof. exact from_shape. Qed.
Print Assumptions C110_from_shape.
Theorem C110_from_shape_default :
  forall shape, exists axes, position_basis_from_shape shape None = Some axes /\
  stacked axes = BTuple (map BFund shape) /\ in_space (length shape) axes /\
  forall x c, (x < nprod shape)%nat -> (c < length shape)%nat ->
    fundamental_x_points shape (lattice_of axes) x c = (INR (nth c (unravel shape x) 0%nat) / INR (nth c shape 0%nat))%R.
Proof. exact from_shape_default. Qed.
Print Assumptions C110_from_shape_default.

(** position_basis_3d_from_parent has the lattice vectors of the parent; states of the parent
    convert to it only if the resolution is the fundamental shape of the parent. *)
Theorem C110_from_parent :
  forall parent resolution,
  ((exists child, position_basis_3d_from_parent parent resolution = Some child) <-> (3 <= length parent)%nat /\ (3 <= length resolution)%nat) /\
  (length parent = 3%nat -> length resolution = 3%nat -> exists child, position_basis_3d_from_parent parent resolution = Some child /\
     map la_delta child = map la_delta parent /\ stacked child = BTuple (map BFund resolution) /\
     forall same, (exists G, convert same (stacked parent) (stacked child) = Some G) <-> resolution = fundamental_shape parent).
Proof. exact from_parent. Qed.
Print Assumptions C110_from_parent.
Theorem C110_momentum_from_resolution :
  forall resolution delta,
  ((exists axes, momentum_basis_3d_from_resolution resolution (Some delta) = Some axes) <-> (3 <= length delta)%nat /\ (3 <= length resolution)%nat) /\
  (length delta = 3%nat -> length resolution = 3%nat -> exists axes, momentum_basis_3d_from_resolution resolution (Some delta) = Some axes /\
     map la_delta axes = delta /\ stacked axes = BTuple (map BFundT resolution)) /\
  momentum_basis_3d_from_resolution resolution None = momentum_basis_3d_from_resolution resolution (Some [[1; 0; 0]; [0; 1; 0]; [0; 0; 1]]%R).
Proof. exact momentum_resolution. Qed.
Print Assumptions C110_momentum_from_resolution.

(** stacked_basis_as_fundamental_with_shape and basis_as_single_point_basis raise for every axis;
    get_single_point_basis does not. *)
Theorem C110_with_shape_raises :
  forall axes shape, (axes <> [] -> stacked_basis_as_fundamental_with_shape axes shape = None) /\
  (shape <> [] -> stacked_basis_as_fundamental_with_shape axes shape = None) /\
  stacked_basis_as_fundamental_with_shape [] [] = Some [].
Proof. exact with_shape. Qed.
Print Assumptions C110_with_shape_raises.
Theorem C110_single_points :
  forall d axes, in_space d axes ->
  map la_delta (get_single_point_basis axes) = map la_delta axes /\
  stacked (get_single_point_basis axes) = BTuple (map (fun _ => BFund 1) axes) /\
  bsize (stacked (get_single_point_basis axes)) = 1%nat /\ in_space d (get_single_point_basis axes) /\
  forall a, In a axes -> basis_as_single_point_basis a = None.
Proof. exact single_points. Qed.
Print Assumptions C110_single_points.

(** Model of basis/conversion.py, stacked_basis/conversion.py and stacked_basis/build.py: bases
    with lattice vectors.  No proofs here. *)
From Coq Require Import Reals.
From Verif Require Import ZLib NumPy Basis.
Local Open Scope nat_scope.

(** basis/basis_like.py [BasisWithLengthLike]: a basis and its lattice vector. *)
Record length_axis := { la_basis : basis; la_delta : list R }.

(** basis/basis.py:68-80 [FundamentalPositionBasis] and 260-267
    [FundamentalTransformedPositionBasis]. *)
Definition position_axis_of (delta : list R) (n : nat) : length_axis := {| la_basis := BFund n; la_delta := delta |}.
Definition momentum_axis_of (delta : list R) (n : nat) : length_axis := {| la_basis := BFundT n; la_delta := delta |}.

(** basis/conversion.py:28-42, 45-59. *)
Definition basis_as_fundamental_position_basis (a : length_axis) : length_axis :=
  position_axis_of (la_delta a) (bfund (la_basis a)).
Definition basis_as_fundamental_momentum_basis (a : length_axis) : length_axis :=
  momentum_axis_of (la_delta a) (bfund (la_basis a)).
(** 62-76, 79-93. *)
Definition basis_as_fundamental_transformed_basis (b : basis) : basis := BFundT (bfund b).
Definition basis_as_fundamental_basis (b : basis) : basis := BFund (bfund b).
(** 96-111 [basis_as_n_point_basis]: the name [_N1Inv] in its body is only defined under
    [TYPE_CHECKING]: NameError.  114-128 [basis_as_single_point_basis] calls it. *)
Definition basis_as_n_point_basis (delta : list R) (n : nat) : option length_axis := None.
Definition basis_as_single_point_basis (a : length_axis) : option length_axis := basis_as_n_point_basis (la_delta a) 1.

(** basis/stacked_basis.py:167-172 [delta_x_stacked]: [np.array] of vectors of different
    lengths: ValueError. *)
Definition delta_x_stacked (axes : list length_axis) : option (list (list R)) :=
  match axes with
  | [] => Some []
  | a :: rest =>
      if forallb (fun b => Nat.eqb (length (la_delta b)) (length (la_delta a))) rest then Some (map la_delta axes) else None
  end.
(** 115-119 [fundamental_shape] and the stacked basis without its lattice. *)
Definition fundamental_shape (axes : list length_axis) : list nat := map (fun a => bfund (la_basis a)) axes.
Definition stacked (axes : list length_axis) : basis := BTuple (map la_basis axes).

(** stacked_basis/conversion.py:31-64. *)
Definition stacked_basis_as_fundamental_transformed_basis (axes : list length_axis) : basis :=
  BTuple (map BFundT (fundamental_shape axes)).
Definition stacked_basis_as_fundamental_basis (axes : list length_axis) : basis := BTuple (map BFund (fundamental_shape axes)).
(** 104-130, 168-192: the shorter of the two lists decides in [zip]. *)
Definition stacked_basis_as_fundamental_momentum_basis (axes : list length_axis) : option (list length_axis) :=
  match delta_x_stacked axes with
  | Some ds => Some (map (fun p => momentum_axis_of (fst p) (snd p)) (combine ds (fundamental_shape axes)))
  | None => None
  end.
Definition stacked_basis_as_fundamental_position_basis (axes : list length_axis) : option (list length_axis) :=
  match delta_x_stacked axes with
  | Some ds => Some (map (fun p => position_axis_of (fst p) (snd p)) (combine ds (fundamental_shape axes)))
  | None => None
  end.
(** 195-216 [stacked_basis_as_fundamental_with_shape]: [zip(..., strict=True)] raises at the end
    of the shorter list, the first pair raises before. *)
Fixpoint n_point_axes (ds : list (list R)) (shape : list nat) : option (list length_axis) :=
  match ds, shape with
  | [], [] => Some []
  | d :: ds, n :: shape =>
      match basis_as_n_point_basis d n with
      | Some a => match n_point_axes ds shape with Some r => Some (a :: r) | None => None end
      | None => None
      end
  | _, _ => None
  end.
Definition stacked_basis_as_fundamental_with_shape (axes : list length_axis) (shape : list nat) : option (list length_axis) :=
  match delta_x_stacked axes with Some ds => n_point_axes ds shape | None => None end.

(** stacked_basis/util.py:491-509 [get_single_point_basis]. *)
Definition get_single_point_basis (axes : list length_axis) : list length_axis :=
  map (fun a => position_axis_of (la_delta a) 1) axes.

(** stacked_basis/build.py:92-109, 144-161. *)
Definition fundamental_stacked_basis_from_shape (shape : list nat) : basis := BTuple (map BFund shape).
Definition fundamental_transformed_stacked_basis_from_shape (shape : list nat) : basis := BTuple (map BFundT shape).

(** [np.eye(n)]. *)
Definition np_eye (n : nat) : list (list R) :=
  map (fun i => map (fun j => if Nat.eqb i j then 1%R else 0%R) (seq 0 n)) (seq 0 n).
(** 164-185 [position_basis_from_shape]. *)
Fixpoint zip_strict (ds : list (list R)) (shape : list nat) : option (list (list R * nat)) :=
  match ds, shape with
  | [], [] => Some []
  | d :: ds, n :: shape => match zip_strict ds shape with Some r => Some ((d, n) :: r) | None => None end
  | _, _ => None
  end.
Definition position_basis_from_shape (shape : list nat) (delta : option (list (list R))) : option (list length_axis) :=
  let delta := match delta with None => np_eye (length shape) | Some d => d end in
  match zip_strict delta shape with
  | Some l => Some (map (fun p => position_axis_of (fst p) (snd p)) l)
  | None => None
  end.
(** 34-59 [position_basis_3d_from_parent]: IndexError without a third axis or resolution. *)
Definition position_basis_3d_from_parent (parent : list length_axis) (resolution : list nat) : option (list length_axis) :=
  match parent, resolution with
  | a :: b :: c :: _, l :: m :: n :: _ =>
      Some [position_axis_of (la_delta a) l; position_axis_of (la_delta b) m; position_axis_of (la_delta c) n]
  | _, _ => None
  end.
(** 213-249 [momentum_basis_3d_from_resolution]. *)
Definition momentum_basis_3d_from_resolution (resolution : list nat) (delta : option (list (list R))) : option (list length_axis) :=
  let delta := match delta with None => np_eye 3 | Some d => d end in
  match delta, resolution with
  | a :: b :: c :: _, l :: m :: n :: _ => Some [momentum_axis_of a l; momentum_axis_of b m; momentum_axis_of c n]
  | _, _ => None
  end.

(** Properties of potentials read from JSON files (C127). *)
From Coq Require Import Reals List.
From Verif Require Import ZLib Csum DFT NumPy Basis Operator Hamiltonian VolumeBasis LoadPotential SpecLoadPotential LoadPotentialProofs.
Import ListNotations.
Local Open Scope nat_scope.

(** ** C127 *)

(** Points at two by one places and two heights. *)
Example ex_C127_points : rectangular [2; 1; 2] two_heights /\ number_at two_heights [1; 0; 1] = Some 5%R.
Proof. split; [exact two_heights_rectangular|reflexivity]. Qed.

(** Nested lists have at most one shape. *)
Theorem C127_shape_unique : forall shape shape' points, rectangular shape points -> rectangular shape' points -> shape = shape'.
Proof. exact rectangular_unique. Qed.
Print Assumptions C127_shape_unique.

(** A grid of points is read with one axis per level of lists, as many points along it as the lists
    are long, and each number at the place of its indices. *)
Theorem C127_grid : forall d0 d1 d2 points n0 n1 n2 more, rectangular (n0 :: n1 :: n2 :: more) points ->
  exists data, load_potential_grid_json d0 d1 d2 points =
      Some ([{| la_basis := BFund n0; la_delta := d0 |}; {| la_basis := BFund n1; la_delta := d1 |}; {| la_basis := BFund n2; la_delta := d2 |}], data) /\
    ashape data = n0 :: n1 :: n2 :: more /\
    forall idx, in_shape idx (ashape data) -> option_map RtoC (number_at points idx) = Some (aflat data (ravel (ashape data) idx)).
Proof. exact grid_some. Qed.
Print Assumptions C127_grid.

(** Points that are not a grid with three axes or more are refused, and no others. *)
Theorem C127_grid_refused : forall d0 d1 d2 points,
  (forall shape, rectangular shape points -> length shape < 3) <-> load_potential_grid_json d0 d1 d2 points = None.
Proof. exact grid_none. Qed.
Print Assumptions C127_grid_refused.

(** The same for uneven heights, with two axes and the heights as they are. *)
Theorem C127_uneven : forall d0 d1 z points n0 n1 more, rectangular (n0 :: n1 :: more) points ->
  exists data, load_uneven_potential_json d0 d1 z points =
      Some ([{| la_basis := BFund n0; la_delta := d0 |}; {| la_basis := BFund n1; la_delta := d1 |}], z, data) /\
    ashape data = n0 :: n1 :: more /\
    forall idx, in_shape idx (ashape data) -> option_map RtoC (number_at points idx) = Some (aflat data (ravel (ashape data) idx)).
Proof. exact uneven_some. Qed.
Print Assumptions C127_uneven.
Theorem C127_uneven_refused : forall d0 d1 z points,
  (forall shape, rectangular shape points -> length shape < 2) <-> load_uneven_potential_json d0 d1 z points = None.
Proof. exact uneven_none. Qed.
Print Assumptions C127_uneven_refused.

(** The number of heights is not compared with the points. *)
Theorem C127_heights_refuted : ~ (forall d0 d1 z points axes z' data, load_uneven_potential_json d0 d1 z points = Some (axes, z', data) ->
  nprod (map (fun a => bsize (la_basis a)) axes) * length z' = nprod (ashape data)).
Proof. exact heights_refuted. Qed.
Print Assumptions C127_heights_refuted.

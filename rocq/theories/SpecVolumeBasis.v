(** Vocabulary for bases with lattice vectors. *)
From Coq Require Import Reals.
From Verif Require Import ZLib Csum NumPy Basis Hamiltonian Paths VolumeBasis.
Local Open Scope R_scope.

(** All lattice vectors have [d] components. *)
Definition in_space (d : nat) (axes : list length_axis) : Prop := Forall (fun a => length (la_delta a) = d) axes.
(** Component [c] of lattice vector [a]. *)
Definition lattice_of (axes : list length_axis) (a c : nat) : R := nth c (nth a (map la_delta axes) []) 0.
(** Scalar product of wave vector [j] and point [x], with the points of BasisUtil
    (fundamental_stacked_k_points and fundamental_x_points_stacked). *)
Definition k_dot_x (shape : list nat) (delta inv : nat -> nat -> R) (j x : nat) : R :=
  rsum (fun c => fundamental_stacked_k_points shape inv c j * fundamental_x_points shape delta x c) (length shape).

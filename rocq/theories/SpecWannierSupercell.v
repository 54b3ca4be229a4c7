(** Vocabulary for the statement that the Wannier Hamiltonian is the Hamiltonian of the
    supercell. *)
From Coq Require Import Reals.
From Verif Require Import ZLib Csum DFT NumPy Spec Basis SpecBasis Operator SpecWavepacket.
Local Open Scope R_scope.
Local Open Scope C_scope.

(** Coefficients, in the plane waves of the supercell, of the state with the given values at
    the points of the supercell. *)
Definition plane_coefficients (F : list nat) (u : nat -> C) : nat -> C :=
  fun k => inner_product (nprod F) (bstate (momenta F) k) u.

(** A flat array read as a square matrix. *)
Definition as_matrix (n : nat) (a : ndarray) : nat -> nat -> C := fun i j => aflat a (i * n + j)%nat.

(** Vocabulary for the statements about the compiled Hamiltonian generator. *)
From Coq Require Import Reals List.
From Verif Require Import ZLib Csum DFT NumPy Basis SpecBasis SpecWavepacket SpecHamiltonian.
Import ListNotations.
Local Open Scope R_scope.
Local Open Scope C_scope.

(** Element (i, j) of a list of rows, and its shape. *)
Definition entry (rows : list (list C)) (i j : nat) : C := nth j (nth i rows []) 0.
Definition has_shape (n m : nat) (rows : list (list C)) : Prop := length rows = n /\ Forall (fun r => length r = m) rows.

(** <b_i | V | b_j> on the fundamental grid. *)
Definition potential_element (b : basis) (V : nat -> C) (i j : nat) : C :=
  csum (fun x => Cconj (bstate b i x) * V x * bstate b j x) (bfund b).

(** Plane waves along the first two axes times one of [m] functions on the points of the last. *)
Definition slab_basis (n0 n1 nz r0 r1 m : nat) (states : nat -> nat -> C) : basis :=
  BTuple [BTrans r0 n0; BTrans r1 n1; BExpl m states (BFund nz)].

(** The discrete Fourier coefficients, over the first two axes, of a potential on a grid of
    shape (n0, n1, nz): [V = sum_k ft_k exp(-2 pi i k.x)]. *)
Definition fourier_coefficients (n0 n1 nz : nat) (V : nat -> C) (ft : nat -> nat -> nat -> C) : Prop :=
  forall x0 x1 z, (x0 < n0)%nat -> (x1 < n1)%nat -> (z < nz)%nat ->
    V (ravel [n0; n1; nz] [x0; x1; z]) =
    csum (fun k0 => csum (fun k1 => ft k0 k1 z * omega n0 (- (Z.of_nat k0 * Z.of_nat x0)) * omega n1 (- (Z.of_nat k1 * Z.of_nat x1))) n1) n0.

(** The third lattice vector (row of [delta]) lies along the third coordinate and the other
    two lie in the plane of the first two. *)
Definition perpendicular_axis (delta : nat -> nat -> R) : Prop :=
  delta 0%nat 2%nat = 0%R /\ delta 1%nat 2%nat = 0%R /\ delta 2%nat 0%nat = 0%R /\ delta 2%nat 1%nat = 0%R.

(** <b_i | hbar^2 q^2 / 2m | b_j>: the free energy of every wave vector between two states on
    a grid of the given shape; [q] lists the wave vectors of the grid. *)
Definition kinetic_element (hbar mass : R) (shape : list nat) (b : basis) (q : nat -> nat -> R) (i j : nat) : C :=
  csum (fun k => overlap b (momenta shape) i k * RtoC (hbar * hbar * dot (length shape) (q k) (q k) / (2 * mass)) *
                 overlap (momenta shape) b k j) (nprod shape).

(** Vectors in the plane. *)
Definition dot2 (a b : R * R) : R := (fst a * fst b + snd a * snd b)%R.

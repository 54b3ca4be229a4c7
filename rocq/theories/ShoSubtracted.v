(** Model of the parts of hamiltonian_builder/sho_subtracted_basis.py that do not need the
    oscillator basis (which raises, see Oscillator.v): the potential left after an oscillator is
    subtracted, its transform and its elements between oscillator states. *)
From Coq Require Import Reals List ZArith Arith.
From Verif Require Import ZLib Csum DFT NumPy Index Lattice Basis Oscillator Generator.
Import ListNotations.
Local Open Scope nat_scope.

(** sho_subtracted_basis.py:58-81 [__init__]: the checks of the resolution. *)
Definition sho_resolution_ok (n0 n1 r0 r1 : nat) : bool :=
  negb ((Z.of_nat n0 <? 2 * (Z.of_nat r0 - 1))%Z || (Z.of_nat n1 <? 2 * (Z.of_nat r1 - 1))%Z).

(** 83-89 [points]: the real part. *)
Definition sho_points (data : nat -> C) (x : nat) : R := fst (data x).

(** 91-93 [z_offset]; 107-110 [dz]: the length of the step along the last axis, whose vector
    is [delta] in three dimensions. *)
Definition sho_z_offset (origin : nat -> R) : R := origin 2.
Definition sho_dz (delta : nat -> R) (nz : nat) : R := norm 3 (fun c => (delta c / INR nz)%R).

(** 112-117 [z_distances]; 207-210 [get_sho_potential]. *)
Definition get_sho_potential (mass omega : R) (delta : nat -> R) (nz : nat) (origin : nat -> R) (z : nat) : R :=
  (/ 2 * mass * omega ^ 2 * Rsqr (calculate_x_distances 3 delta nz origin z))%R.

(** 212-215 [get_sho_subtracted_points]: broadcast over the first two axes. *)
Definition get_sho_subtracted_points (n0 n1 nz : nat) (data : nat -> C) (mass omega : R) (delta origin : nat -> R)
    (x0 x1 z : nat) : R :=
  (sho_points data (ravel [n0; n1; nz] [x0; x1; z]) - get_sho_potential mass omega delta nz origin z)%R.

(** 217-221 [get_ft_potential]. *)
Definition get_sho_ft_potential (n0 n1 nz : nat) (data : nat -> C) (mass omega : R) (delta origin : nat -> R)
    : nat -> nat -> nat -> C :=
  ifft2 n0 n1 (fun x0 x1 z => RtoC (get_sho_subtracted_points n0 n1 nz data mass omega delta origin x0 x1 z)).

(** 223-237 [_calculate_off_diagonal_energies_fast] of a constructed object. *)
Definition sho_off_diagonal_energies_fast (hbar : R) (n0 n1 nz : nat) (data : nat -> C) (mass omega : R)
    (delta origin : nat -> R) (r0 r1 r2 : nat) : option (list (list C)) :=
  if sho_resolution_ok n0 n1 r0 r1 then
    calculate_off_diagonal_energies hbar (to_list3 n0 n1 nz (get_sho_ft_potential n0 n1 nz data mass omega delta origin))
      r0 r1 r2 (sho_dz delta nz) mass omega (sho_z_offset origin)
  else None.
